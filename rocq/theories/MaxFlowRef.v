(** A reference for [nx.maximum_flow] that meets [nx_flow2_ok]: the linear program of the flow. *)
From Coq Require Import ZArith List String Bool Arith Lia QArith Qcanon.
From Verif Require Import Py PyFacts Num Flow SpecFlow Lp FlowFacts FlowRef MaxFlow SpecMaxFlow.
Import ListNotations.
Open Scope string_scope.
Open Scope list_scope.

Definition cap_cons2 (bi : bool) (g : cgraph) : list con :=
  flat_map (fun ie => [(unit_row (fst ie) 1, snd (snd ie)); (unit_row (fst ie) (-(1)), if bi then snd (snd ie) else 0)]%Qc) (combine (seq 0 (List.length g)) g).
Definition flow_cons2 (bi : bool) (g : cgraph) (s t : string) : list con :=
  cap_cons2 bi g ++ flat_map (fun n => if String.eqb n s || String.eqb n t then [] else eq_cons (node_row g n)) (nodes g) ++ eq_cons (node_row g s ++ [-(1)])%Qc.
Fixpoint flow_dir (g : cgraph) (phi : list Qc) (a b : string) : Qc :=
  match g, phi with
  | (u, v, _) :: g', w :: phi' => if String.eqb u a && String.eqb v b then w else flow_dir g' phi' a b
  | _, _ => 0%Qc
  end.
Definition flow_fn2 (bi : bool) (g : cgraph) (phi : list Qc) : string -> string -> Qc := if bi then flow_fn g phi else flow_dir g phi.
Definition nx_lp2 (bi : bool) (g : cgraph) (s t : string) : res (Qc * (string -> string -> Qc)) :=
  let x := solve (List.length g) (flow_cons2 bi g s t) in Ok (last x 0%Qc, flow_fn2 bi g (removelast x)).

Lemma seq_nth {A} (l : list A) k j e : nth_error l j = Some e -> nth_error (combine (seq k (List.length l)) l) j = Some ((k + j)%nat, e).
Proof.
  revert k j e. induction l as [|e0 l IH]; intros k [|j] e' E; try discriminate E; cbn [List.length seq combine nth_error] in *; [injection E as ->; rewrite Nat.add_0_r; auto|].
  rewrite (IH (S k) j e' E). f_equal. f_equal. lia.
Qed.
Lemma seq_in {A} (l : list A) k j e : In (j, e) (combine (seq k (List.length l)) l) -> exists j', j = (k + j')%nat /\ nth_error l j' = Some e.
Proof.
  revert k j e. induction l as [|e0 l IH]; intros k j e' J; [destruct J|]. cbn [List.length seq combine] in J. destruct J as [J|J].
  - injection J as <- <-. exists O. split; [lia|auto].
  - destruct (IH _ _ _ J) as (j' & -> & Ej). exists (S j'). split; [lia|auto].
Qed.
Lemma sat_caps2 bi g phi v : List.length phi = List.length g -> (sat (cap_cons2 bi g) (phi ++ [v]) <-> Forall2 (fun e w => fits2 bi (snd e) w) g phi).
Proof.
  intros L. unfold cap_cons2, sat. rewrite Forall_flat_map. split.
  - intros H. rewrite Forall_forall in H. apply Forall2_nth_error; [auto|]. intros i e w E1 E2.
    assert (I : In (i, e) (combine (seq 0 (List.length g)) g)) by (apply nth_error_In with i; rewrite (seq_nth g 0%nat i e E1); auto).
    specialize (H _ I). cbn [fst snd] in H. inversion H as [|? ? H1 H2]; subst. inversion H2 as [|? ? H3 _]; subst. unfold holds_c in *. cbn [fst snd] in *.
    rewrite dot_unit in H1, H3. assert (N : nth i (phi ++ [v]) 0%Qc = w). { rewrite app_nth1; [apply nth_error_nth; auto|apply nth_error_Some; congruence]. }
    rewrite N in *. split; destruct bi; qc_lra.
  - intros H. apply Forall_forall. intros [i e] I.
    assert (E1 : nth_error g i = Some e) by (destruct (seq_in g 0%nat i e I) as (j' & -> & Ej); auto).
    assert (Li : (i < List.length g)%nat) by (apply nth_error_Some; congruence).
    destruct (nth_error phi i) as [w|] eqn:E2; [|apply nth_error_None in E2; lia]. destruct (Forall2_nth_inv _ _ _ _ _ _ H E1 E2) as [F1 F2].
    assert (N : nth i (phi ++ [v]) 0%Qc = w). { rewrite app_nth1; [apply nth_error_nth; auto|lia]. }
    cbn [fst snd]. constructor; [|constructor; [|constructor]]; unfold holds_c; cbn [fst snd]; rewrite dot_unit, N; destruct bi; qc_lra.
Qed.
Lemma flow_cons2_ok bi g s t phi v : List.length phi = List.length g -> (sat (flow_cons2 bi g s t) (phi ++ [v]) <-> sends2 bi g phi s t v).
Proof.
  intros L. unfold flow_cons2. rewrite !sat_app, sat_caps2, sat_eq, dot_node_v by auto. unfold sends2. split.
  - intros (A & B & C). split; auto. split; [|qc_lra]. intros n N1 N2. destruct (in_dec string_dec n (nodes g)) as [I|I].
    + unfold sat in B. rewrite Forall_flat_map, Forall_forall in B. specialize (B n I). cbn beta in B.
      destruct (String.eqb_spec n s); [contradiction|]. destruct (String.eqb_spec n t); [contradiction|]. cbn [orb] in B.
      apply sat_eq in B. rewrite dot_node in B by auto. auto.
    + apply net_fresh. rewrite nodes_In. auto.
  - intros (A & B & C). split; auto. split; [|rewrite C; ring]. unfold sat. rewrite Forall_flat_map, Forall_forall. intros n _.
    destruct (String.eqb_spec n s); [constructor|]. destruct (String.eqb_spec n t); [constructor|]. cbn [orb]. apply sat_eq. rewrite dot_node by auto. auto.
Qed.
Lemma net_bounded2 bi g phi n : (forall e, In e g -> (0 <= snd e)%Qc) -> Forall2 (fun e w => fits2 bi (snd e) w) g phi ->
  (net g phi n <= qsum (map (fun e => snd e + snd e)%Qc g))%Qc.
Proof.
  intros P H. apply net_bounded; auto. induction H as [|e w g phi [F1 F2] H IH]; constructor.
  - assert (E0 := P e (or_introl eq_refl)). split; destruct bi; qc_lra.
  - apply IH. intros; apply P; right; auto.
Qed.
Lemma simple2_simple g : simple2 true g -> simple g.
Proof.
  induction g as [|[[u v] c] g IH]; cbn [simple2 simple]; auto. intros (A & B & C). split; auto. split; auto.
  intros a b e I. destruct (B a b e I) as [B1 B2]. split; [exact B1|exact (B2 eq_refl)].
Qed.
Lemma flow_dir_at g phi i u v c w : simple2 false g -> nth_error g i = Some (u, v, c) -> nth_error phi i = Some w -> flow_dir g phi u v = w.
Proof.
  revert phi i. induction g as [|[[a b] e] g IH]; intros phi [|i] S E1 E2; try discriminate E1; destruct phi as [|w0 phi]; try discriminate E2;
    cbn [nth_error simple2 flow_dir] in *; destruct S as (S1 & S2 & S3).
  - injection E1 as -> -> ->. injection E2 as ->. rewrite !String.eqb_refl. auto.
  - destruct (S2 u v c (nth_error_In _ _ E1)) as [D1 _].
    destruct (String.eqb_spec a u), (String.eqb_spec b v); subst; cbn [andb]; eauto. exfalso; auto.
Qed.
Lemma signed_fn2 bi g phi : simple2 bi g -> List.length phi = List.length g -> signed2 bi (flow_fn2 bi g phi) g = phi.
Proof.
  intros S L. destruct bi; cbn [flow_fn2].
  - apply (signed_fn g phi (simple2_simple g S) L).
  - apply nth_error_ext; [unfold signed2; rewrite map_length; auto|]. intros i a b E1 E2. unfold signed2 in E1. rewrite nth_error_map in E1.
    destruct (nth_error g i) as [[[u v] c]|] eqn:E; [|discriminate E1]. injection E1 as <-. cbn [fst snd]. apply (flow_dir_at g phi i u v c b S E E2).
Qed.

Lemma nx_lp2_ok : nx_flow2_ok nx_lp2.
Proof.
  intros bi g s t Sg P _ _ _. unfold nx_lp2. set (x := solve (List.length g) (flow_cons2 bi g s t)).
  assert (Lx : List.length x = S (List.length g)) by apply solve_length.
  assert (Xs : x = removelast x ++ [last x 0%Qc]) by (apply app_removelast_last; intros E; rewrite E in Lx; discriminate Lx).
  assert (Lr : List.length (removelast x) = List.length g). { rewrite Xs, app_length in Lx. cbn [List.length] in Lx. lia. }
  assert (Bd : forall y, List.length y = S (List.length g) -> sat (flow_cons2 bi g s t) y -> (last y 0 <= qsum (map (fun e => snd e + snd e) g))%Qc).
  { intros y Ly Sy. assert (Ys : y = removelast y ++ [last y 0%Qc]) by (apply app_removelast_last; intros E; rewrite E in Ly; discriminate Ly).
    assert (Lr' : List.length (removelast y) = List.length g). { rewrite Ys, app_length in Ly. cbn [List.length] in Ly. lia. }
    rewrite Ys in Sy. apply flow_cons2_ok in Sy as (A & _ & C); auto. rewrite <- C. apply (net_bounded2 bi); auto. }
  assert (Best : forall phi v, sends2 bi g phi s t v -> sat (flow_cons2 bi g s t) x /\ (v <= last x 0)%Qc).
  { intros phi v Sv. assert (L : List.length phi = List.length g). { destruct Sv as [A _]. apply Forall2_length in A. auto. }
    destruct (solve_ok (List.length g) (flow_cons2 bi g s t) (phi ++ [v]) (qsum (map (fun e => snd e + snd e) g))%Qc) as [S1 S2]; auto.
    - rewrite app_length, L. cbn. lia.
    - apply flow_cons2_ok; auto.
    - fold x in S1, S2. rewrite last_last in S2. auto. }
  assert (Z : sends2 bi g (repeat 0%Qc (List.length g)) s t 0%Qc).
  { split; [|split]; [|intros; apply net_zero|apply net_zero]. apply Forall2_nth_error; [rewrite repeat_length; auto|].
    intros i e w E1 E2. apply nth_error_In in E1. apply nth_error_In in E2. apply repeat_spec in E2. subst w. specialize (P e E1). split; destruct bi; qc_lra. }
  destruct (Best _ _ Z) as [Sx _]. rewrite Xs in Sx. apply flow_cons2_ok in Sx; auto.
  exists (last x 0%Qc), (flow_fn2 bi g (removelast x)). split; auto. split; [|split].
  - intros u v c I. apply In_nth_error in I as [i I]. assert (Li : (i < List.length g)%nat) by (apply nth_error_Some; congruence).
    destruct (nth_error (removelast x) i) as [w|] eqn:E; [|apply nth_error_None in E; lia]. destruct bi; cbn [flow_fn2].
    + destruct (flow_fn_at g (removelast x) i u v c w (simple2_simple g Sg) I E) as [E1 E2]. unfold one_way. rewrite E1, E2. split; [apply posp_nonneg|]. split; [apply posp_nonneg|apply posp_one].
    + split; [|discriminate]. rewrite (flow_dir_at g (removelast x) i u v c w Sg I E). exact (proj1 (Forall2_nth_inv _ _ _ _ _ _ (proj1 Sx) I E)).
  - rewrite signed_fn2; auto.
  - intros phi v Sv. apply (Best phi v Sv).
Qed.
