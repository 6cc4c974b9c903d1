(** A reference for [nx.maximum_flow] that meets [nx_flow_ok]: the linear program of the flow. *)
From Coq Require Import ZArith List String Bool Arith Lia QArith Qcanon.
From Verif Require Import Py PyFacts Num Flow SpecFlow Lp FlowFacts.
Import ListNotations.
Open Scope string_scope.
Open Scope list_scope.

Definition unit_row (i : nat) (a : Qc) : list Qc := repeat 0%Qc i ++ [a].
Definition cap_cons (g : cgraph) : list con :=
  flat_map (fun ie => [(unit_row (fst ie) 1, snd (snd ie)); (unit_row (fst ie) (-(1)), snd (snd ie))]%Qc) (combine (seq 0 (List.length g)) g).
Definition node_row (g : cgraph) (n : string) : list Qc := map (fun e => share n (fst e) 1%Qc) g.
Definition eq_cons (a : list Qc) : list con := [(a, 0%Qc); (map Qcopp a, 0%Qc)].
Definition nodes (g : cgraph) : list string := nodup string_dec (map (fun e => fst (fst e)) g ++ map (fun e => snd (fst e)) g).
Definition flow_cons (g : cgraph) (s t : string) : list con :=
  cap_cons g ++ flat_map (fun n => if String.eqb n s || String.eqb n t then [] else eq_cons (node_row g n)) (nodes g) ++ eq_cons (node_row g s ++ [-(1)])%Qc.

Definition posp (w : Qc) : Qc := if qc_ltb 0%Qc w then w else 0%Qc.
Fixpoint flow_fn (g : cgraph) (phi : list Qc) (a b : string) : Qc :=
  match g, phi with
  | (u, v, _) :: g', w :: phi' =>
      if String.eqb u a && String.eqb v b then posp w else if String.eqb u b && String.eqb v a then posp (- w)%Qc else flow_fn g' phi' a b
  | _, _ => 0%Qc
  end.
Definition nx_lp (g : cgraph) (s t : string) : res (Qc * (string -> string -> Qc)) :=
  let x := solve (List.length g) (flow_cons g s t) in Ok (last x 0%Qc, flow_fn g (removelast x)).

Lemma dot_unit i a x : dot (unit_row i a) x = (a * nth i x 0)%Qc.
Proof.
  unfold unit_row. revert x. induction i as [|i IH]; intros [|x0 x]; cbn [repeat app dot nth]; try ring.
  rewrite IH. ring.
Qed.
Lemma dot_node g n phi v : List.length phi = List.length g -> dot (node_row g n) (phi ++ [v]) = net g phi n.
Proof.
  revert phi. induction g as [|e g IH]; intros [|w phi] L; try discriminate L; auto. cbn [node_row map app dot].
  rewrite net_cons. change (map (fun e => share n (fst e) 1%Qc) g) with (node_row g n). rewrite IH by (injection L; auto).
  unfold share. destruct (String.eqb _ _), (String.eqb _ _); ring.
Qed.
Lemma dot_node_v g n phi v : List.length phi = List.length g -> dot (node_row g n ++ [(-(1))%Qc]) (phi ++ [v]) = (net g phi n - v)%Qc.
Proof.
  revert phi. induction g as [|e g IH]; intros [|w phi] L; try discriminate L; cbn [node_row map app dot].
  - rewrite net_nil. ring.
  - rewrite net_cons. change (map (fun e => share n (fst e) 1%Qc) g) with (node_row g n). rewrite IH by (injection L; auto).
    unfold share. destruct (String.eqb _ _), (String.eqb _ _); ring.
Qed.
Lemma sat_eq a x : sat (eq_cons a) x <-> dot a x = 0%Qc.
Proof.
  unfold sat, eq_cons, holds_c. split.
  - intros H. inversion H as [|? ? H1 H2]; subst. inversion H2 as [|? ? H3 _]; subst. cbn [fst snd] in *. rewrite dot_opp in H3. qc_lra.
  - intros E. constructor; [cbn [fst snd]; rewrite E; qc_lra|]. constructor; [|constructor]. cbn [fst snd]. rewrite dot_opp, E. qc_lra.
Qed.
Lemma sat_caps g phi v : List.length phi = List.length g -> (sat (cap_cons g) (phi ++ [v]) <-> Forall2 (fun e w => fits (snd e) w) g phi).
Proof.
  intros L. unfold cap_cons, sat. rewrite Forall_flat_map. split.
  - intros H. rewrite Forall_forall in H. apply Forall2_nth_error; [auto|]. intros i e w E1 E2.
    assert (I : In (i, e) (combine (seq 0 (List.length g)) g)).
    { apply nth_error_In with i. assert (Li : (i < List.length g)%nat) by (apply nth_error_Some; congruence).
      assert (X : forall (l : list (string * string * Qc)) k j e, nth_error l j = Some e -> nth_error (combine (seq k (List.length l)) l) j = Some ((k + j)%nat, e)).
      { induction l as [|e0 l IH]; intros k [|j] e' E; try discriminate E; cbn [List.length seq combine nth_error] in *; [injection E as ->; rewrite Nat.add_0_r; auto|].
        rewrite (IH (S k) j e' E). f_equal. f_equal. lia. }
      rewrite (X g 0%nat i e E1). auto. }
    specialize (H _ I). cbn [fst snd] in H. inversion H as [|? ? H1 H2]; subst. inversion H2 as [|? ? H3 _]; subst. unfold holds_c in *. cbn [fst snd] in *.
    rewrite dot_unit in H1, H3. assert (N : nth i (phi ++ [v]) 0%Qc = w). { rewrite app_nth1; [apply nth_error_nth; auto|apply nth_error_Some; congruence]. }
    rewrite N in *. split; qc_lra.
  - intros H. apply Forall_forall. intros [i e] I.
    assert (E1 : nth_error g i = Some e).
    { assert (X : forall (l : list (string * string * Qc)) k j e, In (j, e) (combine (seq k (List.length l)) l) -> exists j', j = (k + j')%nat /\ nth_error l j' = Some e).
      { induction l as [|e0 l IH]; intros k j e' J; [destruct J|]. cbn [List.length seq combine] in J. destruct J as [J|J].
        - injection J as <- <-. exists O. split; [lia|auto].
        - destruct (IH _ _ _ J) as (j' & -> & Ej). exists (S j'). split; [lia|auto]. }
      destruct (X g 0%nat i e I) as (j' & -> & Ej). auto. }
    assert (Li : (i < List.length g)%nat) by (apply nth_error_Some; congruence).
    destruct (nth_error phi i) as [w|] eqn:E2; [|apply nth_error_None in E2; lia]. destruct (Forall2_nth_inv _ _ _ _ _ _ H E1 E2) as [F1 F2].
    assert (N : nth i (phi ++ [v]) 0%Qc = w). { rewrite app_nth1; [apply nth_error_nth; auto|lia]. }
    cbn [fst snd]. constructor; [|constructor; [|constructor]]; unfold holds_c; cbn [fst snd]; rewrite dot_unit, N; qc_lra.
Qed.
Lemma sat_app cs cs' x : sat (cs ++ cs') x <-> sat cs x /\ sat cs' x.
Proof. apply Forall_app. Qed.
Lemma nodes_In g n : is_node g n <-> In n (nodes g).
Proof.
  unfold nodes. rewrite nodup_In, in_app_iff, !in_map_iff. split.
  - intros (e & I & [E|E]); [left|right]; exists e; auto.
  - intros [(e & E & I)|(e & E & I)]; exists e; auto.
Qed.
Lemma flow_cons_ok g s t phi v : List.length phi = List.length g -> (sat (flow_cons g s t) (phi ++ [v]) <-> sends g phi s t v).
Proof.
  intros L. unfold flow_cons. rewrite !sat_app, sat_caps, sat_eq, dot_node_v by auto. unfold sends. split.
  - intros (A & B & C). split; auto. split; [|qc_lra]. intros n N1 N2. destruct (in_dec string_dec n (nodes g)) as [I|I].
    + unfold sat in B. rewrite Forall_flat_map, Forall_forall in B. specialize (B n I). cbn beta in B.
      destruct (String.eqb_spec n s); [contradiction|]. destruct (String.eqb_spec n t); [contradiction|]. cbn [orb] in B.
      apply sat_eq in B. rewrite dot_node in B by auto. auto.
    + apply net_fresh. rewrite nodes_In. auto.
  - intros (A & B & C). split; auto. split; [|rewrite C; ring]. unfold sat. rewrite Forall_flat_map, Forall_forall. intros n _.
    destruct (String.eqb_spec n s); [constructor|]. destruct (String.eqb_spec n t); [constructor|]. cbn [orb]. apply sat_eq. rewrite dot_node by auto. auto.
Qed.
Lemma net_bounded g phi n : (forall e, In e g -> (0 <= snd e)%Qc) -> Forall2 (fun e w => fits (snd e) w) g phi ->
  (net g phi n <= qsum (map (fun e => snd e + snd e)%Qc g))%Qc.
Proof.
  intros P H. induction H as [|e w g phi [F1 F2] H IH]; [unfold net; cbn; apply Qcle_refl|]. rewrite net_cons. cbn [map qsum].
  assert (IH' := IH (fun e' I => P e' (or_intror I))). assert (E0 := P e (or_introl eq_refl)).
  assert (X : (share n (fst e) w <= snd e + snd e)%Qc) by (unfold share; destruct (String.eqb _ _), (String.eqb _ _); qc_lra). qc_lra.
Qed.
Lemma net_zero g n k : net g (repeat 0%Qc k) n = 0%Qc.
Proof.
  revert k. induction g as [|e g IH]; intros [|k]; auto. cbn [repeat]. rewrite net_cons, IH. unfold share. destruct (String.eqb _ _), (String.eqb _ _); ring.
Qed.

Lemma flow_fn_at g phi i u v c w : simple g -> nth_error g i = Some (u, v, c) -> nth_error phi i = Some w ->
  flow_fn g phi u v = posp w /\ flow_fn g phi v u = posp (- w)%Qc.
Proof.
  revert phi i. induction g as [|[[a b] e] g IH]; intros phi [|i] S E1 E2; try discriminate E1; destruct phi as [|w0 phi]; try discriminate E2;
    cbn [nth_error simple flow_fn] in *; destruct S as (S1 & S2 & S3).
  - injection E1 as -> -> ->. injection E2 as ->. rewrite !String.eqb_refl. cbn [andb].
    destruct (String.eqb_spec u v); [contradiction|]. cbn [andb]. auto.
  - destruct (S2 u v c (nth_error_In _ _ E1)) as [D1 D2]. destruct (IH phi i S3 E1 E2) as [I1 I2].
    destruct (String.eqb_spec a u), (String.eqb_spec b v), (String.eqb_spec a v), (String.eqb_spec b u); subst; cbn [andb]; auto; exfalso; auto.
Qed.
Lemma posp_diff w : (posp w - posp (- w))%Qc = w.
Proof.
  unfold posp. destruct (qc_ltb 0 w) eqn:A; destruct (qc_ltb 0 (- w)) eqn:B; repeat match goal with
  | H : qc_ltb _ _ = true |- _ => apply qc_ltb_lt in H | H : qc_ltb _ _ = false |- _ => apply qc_ltb_ge in H end; qc_lra.
Qed.
Lemma posp_nonneg w : (0 <= posp w)%Qc.
Proof. unfold posp. destruct (qc_ltb 0 w) eqn:A; [apply qc_ltb_lt in A; qc_lra|apply Qcle_refl]. Qed.
Lemma posp_one w : posp w = 0%Qc \/ posp (- w) = 0%Qc.
Proof.
  unfold posp. destruct (qc_ltb 0 w) eqn:A; auto. right. destruct (qc_ltb 0 (- w)) eqn:B; auto.
  apply qc_ltb_lt in A. apply qc_ltb_lt in B. exfalso. qc_lra.
Qed.
Lemma nth_error_ext {A} (l l' : list A) : List.length l = List.length l' -> (forall i a b, nth_error l i = Some a -> nth_error l' i = Some b -> a = b) -> l = l'.
Proof. intros L H. apply Forall2_nth_error with (P := eq) in H; auto. clear L. induction H; subst; auto. Qed.
Lemma signed_fn g phi : simple g -> List.length phi = List.length g -> signed (flow_fn g phi) g = phi.
Proof.
  intros S L. apply nth_error_ext; [unfold signed; rewrite map_length; auto|]. intros i a b E1 E2. unfold signed in E1. rewrite nth_error_map in E1.
  destruct (nth_error g i) as [[[u v] c]|] eqn:E; [|discriminate E1]. injection E1 as <-. cbn [fst snd].
  destruct (flow_fn_at g phi i u v c b S E E2) as [-> ->]. apply posp_diff.
Qed.

Lemma nx_lp_ok : nx_flow_ok nx_lp.
Proof.
  intros g s t Sg P _ _ _. unfold nx_lp. set (x := solve (List.length g) (flow_cons g s t)).
  assert (Lx : List.length x = S (List.length g)) by apply solve_length.
  assert (Xs : x = removelast x ++ [last x 0%Qc]) by (apply app_removelast_last; intros E; rewrite E in Lx; discriminate Lx).
  assert (Lr : List.length (removelast x) = List.length g). { rewrite Xs, app_length in Lx. cbn [List.length] in Lx. lia. }
  assert (Bd : forall y, List.length y = S (List.length g) -> sat (flow_cons g s t) y -> (last y 0 <= qsum (map (fun e => snd e + snd e) g))%Qc).
  { intros y Ly Sy. assert (Ys : y = removelast y ++ [last y 0%Qc]) by (apply app_removelast_last; intros E; rewrite E in Ly; discriminate Ly).
    assert (Lr' : List.length (removelast y) = List.length g). { rewrite Ys, app_length in Ly. cbn [List.length] in Ly. lia. }
    rewrite Ys in Sy. apply flow_cons_ok in Sy as (A & _ & C); auto. rewrite <- C. apply net_bounded; auto. }
  assert (Best : forall phi v, sends g phi s t v -> sat (flow_cons g s t) x /\ (v <= last x 0)%Qc).
  { intros phi v Sv. assert (L : List.length phi = List.length g). { destruct Sv as [A _]. apply Forall2_length in A. auto. }
    destruct (solve_ok (List.length g) (flow_cons g s t) (phi ++ [v]) (qsum (map (fun e => snd e + snd e) g))%Qc) as [S1 S2]; auto.
    - rewrite app_length, L. cbn. lia.
    - apply flow_cons_ok; auto.
    - fold x in S1, S2. rewrite last_last in S2. auto. }
  assert (Z : sends g (repeat 0%Qc (List.length g)) s t 0%Qc).
  { split; [|split]; [|intros; apply net_zero|apply net_zero]. apply Forall2_nth_error; [rewrite repeat_length; auto|].
    intros i e w E1 E2. apply nth_error_In in E1. apply nth_error_In in E2. apply repeat_spec in E2. subst w. specialize (P e E1). split; qc_lra. }
  destruct (Best _ _ Z) as [Sx _]. rewrite Xs in Sx. apply flow_cons_ok in Sx; auto.
  exists (last x 0%Qc), (flow_fn g (removelast x)). split; auto. split; [|split].
  - intros u v c I. apply In_nth_error in I as [i I]. assert (Li : (i < List.length g)%nat) by (apply nth_error_Some; congruence).
    destruct (nth_error (removelast x) i) as [w|] eqn:E; [|apply nth_error_None in E; lia].
    destruct (flow_fn_at g (removelast x) i u v c w Sg I E) as [-> ->]. split; [apply posp_nonneg|]. split; [apply posp_nonneg|apply posp_one].
  - rewrite signed_fn; auto.
  - intros phi v Sv. apply (Best phi v Sv).
Qed.
