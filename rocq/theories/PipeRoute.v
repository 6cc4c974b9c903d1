(** With stages in order, a plan of positive value follows a route from an origin to a final depot. *)
From Coq Require Import ZArith List String Bool Arith Lia QArith Qcanon.
From Verif Require Import Py PyFacts Num Vari SpecFlow FlowFacts SpecPipe PipeFacts.
Import ListNotations.
Open Scope string_scope.
Open Scope list_scope.

Section Cut.
Variables (edges : dict (string * string)) (w : string -> Qc).
Notation src e := (fst (ends edges e)).
Notation dst e := (snd (ends edges e)).
Definition out_of (es ns : list string) : Qc := qsum (map (fun e => if in_dec string_dec (src e) ns then w e else 0%Qc) es).
Definition into (es ns : list string) : Qc := qsum (map (fun e => if in_dec string_dec (dst e) ns then w e else 0%Qc) es).
Lemma out_sum es ns : NoDup ns -> qsum (map (flow_out edges w es) ns) = out_of es ns.
Proof.
  intros N. unfold flow_out, out_of. rewrite qsum_swap. apply qsum_map_ext. intros e _. destruct (in_dec string_dec (src e) ns) as [I|I].
  - apply qsum_one; auto.
  - apply qsum_map_zero. intros m Hm. destruct (String.eqb_spec (src e) m) as [X|]; auto. rewrite X in I. contradiction.
Qed.
Lemma in_sum es ns : NoDup ns -> qsum (map (flow_in edges w es) ns) = into es ns.
Proof. intros N. apply (arrivals_sum edges w es ns N). Qed.
Lemma qsum_incl (f : string -> Qc) l l' : NoDup l -> incl l l' -> (forall a, In a l' -> (0 <= f a)%Qc) -> (qsum (map f l) <= qsum (map f l'))%Qc.
Proof.
  revert l'. induction l as [|a l IH]; intros l' N I P; cbn [map qsum].
  - apply qsum_nonneg. intros b J. apply in_map_iff in J as (c & <- & J). auto.
  - inversion N as [|? ? N1 N2]; subst. destruct (in_split a l') as (l1 & l2 & ->); [apply I; left; auto|].
    assert (X : (qsum (map f l) <= qsum (map f (l1 ++ l2)))%Qc).
    { apply IH; auto.
      - intros b J. assert (K : In b (l1 ++ a :: l2)) by (apply I; right; auto). apply in_app_iff in K as [K|[->|K]]; [apply in_app_iff; auto|contradiction|apply in_app_iff; auto].
      - intros b J. apply P. apply in_app_iff in J as [J|J]; apply in_app_iff; [left|right; right]; auto. }
    rewrite !map_app, !qsum_app in *. cbn [map qsum]. qc_lra.
Qed.

(** all nodes that walks reach from [A] *)
Lemma closure es A : exists R, NoDup R /\ incl A R /\ (forall b, In b R -> (exists a, In a A /\ walk edges w es a b) /\ (In b A \/ exists e, In e es /\ b = dst e)) /\
  forall e, In e es -> (0 < w e)%Qc -> In (src e) R -> In (dst e) R.
Proof.
  assert (X : forall k R, NoDup R -> incl A R -> (forall b, In b R -> (exists a, In a A /\ walk edges w es a b) /\ (In b A \/ exists e, In e es /\ b = dst e)) ->
    (List.length (filter (fun e => if in_dec string_dec (dst e) R then false else true) es) <= k)%nat ->
    exists R, NoDup R /\ incl A R /\ (forall b, In b R -> (exists a, In a A /\ walk edges w es a b) /\ (In b A \/ exists e, In e es /\ b = dst e)) /\
      forall e, In e es -> (0 < w e)%Qc -> In (src e) R -> In (dst e) R).
  { induction k as [|k IH]; intros R N I H L.
    - exists R. split; auto. split; auto. split; auto. intros e Ie _ _. destruct (in_dec string_dec (dst e) R) as [J|J]; auto.
      assert (Y : In e (filter (fun e => if in_dec string_dec (dst e) R then false else true) es)). { apply filter_In. split; auto. destruct (in_dec string_dec (dst e) R); auto. }
      destruct (filter _ es); [destruct Y|cbn in L; lia].
    - destruct (existsb (fun e => qc_ltb 0 (w e) && (if in_dec string_dec (src e) R then true else false) && (if in_dec string_dec (dst e) R then false else true)) es) eqn:E.
      + apply existsb_exists in E as (e & Ie & Q). apply andb_true_iff in Q as [Q Q3]. apply andb_true_iff in Q as [Q1 Q2]. apply qc_ltb_lt in Q1.
        destruct (in_dec string_dec (src e) R) as [S1|]; [|discriminate Q2]. destruct (in_dec string_dec (dst e) R) as [|D1]; [discriminate Q3|].
        apply (IH (dst e :: R)).
        * constructor; auto.
        * intros a Ia. right. auto.
        * intros b [<-|J]; auto. destruct (H _ S1) as [(a & Ia & Wa) _]. split; [exists a; split; auto; apply walk_on; auto|right; eauto].
        * assert (Y : (List.length (filter (fun e0 => if in_dec string_dec (dst e0) (dst e :: R) then false else true) es) <
                      List.length (filter (fun e0 => if in_dec string_dec (dst e0) R then false else true) es))%nat); [|lia].
          clear - Ie D1. assert (G : forall l, (List.length (filter (fun e0 => if in_dec string_dec (dst e0) (dst e :: R) then false else true) l) <=
                      List.length (filter (fun e0 => if in_dec string_dec (dst e0) R then false else true) l))%nat).
          { induction l as [|e1 l IH]; auto. cbn [filter]. destruct (in_dec string_dec (dst e1) R) as [J|J]; destruct (in_dec string_dec (dst e1) (dst e :: R)) as [K|K]; cbn [List.length]; try lia. exfalso. apply K. right. auto. }
          induction es as [|e1 l IH]; [destruct Ie|]. cbn [filter]. destruct Ie as [->|Ie].
          -- destruct (in_dec string_dec (dst e) R); [contradiction|]. destruct (in_dec string_dec (dst e) (dst e :: R)) as [_|K]; [|exfalso; apply K; left; auto]. cbn [List.length]. specialize (G l). lia.
          -- specialize (IH Ie). destruct (in_dec string_dec (dst e1) R) as [J|J]; destruct (in_dec string_dec (dst e1) (dst e :: R)) as [K|K]; cbn [List.length]; try lia. exfalso. apply K. right. auto.
      + exists R. split; auto. split; auto. split; auto. intros e Ie P S1. destruct (in_dec string_dec (dst e) R) as [J|J]; auto. exfalso.
        assert (Y : existsb (fun e => qc_ltb 0 (w e) && (if in_dec string_dec (src e) R then true else false) && (if in_dec string_dec (dst e) R then false else true)) es = true).
        { apply existsb_exists. exists e. split; auto. apply andb_true_iff. split; [apply andb_true_iff; split; [apply qc_ltb_lt; auto|]|].
          - destruct (in_dec string_dec (src e) R); auto.
          - destruct (in_dec string_dec (dst e) R); auto. }
        congruence. }
  apply (X (List.length es) (nodup string_dec A)).
  - apply NoDup_nodup.
  - intros a I. apply nodup_In. auto.
  - intros b I. apply nodup_In in I. split; [exists b; split; auto; constructor|auto].
  - clear. induction es as [|e l IH]; auto. cbn [filter]. destruct (in_dec string_dec _ _); cbn [List.length]; lia.
Qed.

(** what leaves [A] at the start of a stage arrives at depots that walks reach from [A] *)
Lemma stage_cut es ns prev now A : (forall e, In e es -> (0 <= w e)%Qc) ->
  (forall n, In n ns -> ~ In n prev -> ~ In n now -> flow_out edges w es n = flow_in edges w es n) ->
  (forall e, In e es -> ~ In (dst e) prev /\ ~ In (src e) now /\ In (src e) ns /\ In (dst e) ns) -> incl A prev ->
  exists B, NoDup B /\ incl B now /\ (forall b, In b B -> exists a, In a A /\ walk edges w es a b) /\ (out_of es A <= into es B)%Qc.
Proof.
  intros P C S IA. destruct (closure es A) as (R & NR & AR & HR & Cl).
  set (now_b := fun b => if in_dec string_dec b now then true else false). set (mid_b := fun b => negb (if in_dec string_dec b prev then true else false) && negb (now_b b) && (if in_dec string_dec b ns then true else false)).
  set (B := filter now_b R). set (I := filter mid_b R).
  assert (NB : NoDup B) by (apply NoDup_filter; auto). assert (NI : NoDup I) by (apply NoDup_filter; auto).
  exists B. split; auto. split; [|split].
  - intros b J. apply filter_In in J as [_ J]. unfold now_b in J. destruct (in_dec string_dec b now); auto. discriminate J.
  - intros b J. apply filter_In in J as [J _]. apply HR. auto.
  - assert (MI : forall b, In b I <-> In b R /\ ~ In b prev /\ ~ In b now /\ In b ns).
    { intros b. unfold I. rewrite filter_In. unfold mid_b, now_b. destruct (in_dec string_dec b prev), (in_dec string_dec b now), (in_dec string_dec b ns); cbn [negb andb]; intuition discriminate. }
    assert (MB : forall b, In b B <-> In b R /\ In b now).
    { intros b. unfold B. rewrite filter_In. unfold now_b. destruct (in_dec string_dec b now); intuition discriminate. }
    assert (E1 : (out_of es A + out_of es I)%Qc = out_of es R).
    { unfold out_of. rewrite <- qsum_map_plus. apply qsum_map_ext. intros e Ie. destruct (S e Ie) as (S1 & S2 & S3 & S4).
      destruct (in_dec string_dec (src e) A) as [a|a]; destruct (in_dec string_dec (src e) I) as [b|b]; destruct (in_dec string_dec (src e) R) as [c|c]; try ring; exfalso.
      - apply MI in b as (_ & b & _). apply b. auto.
      - apply MI in b as (_ & b & _). apply b. auto.
      - apply c. auto.
      - apply MI in b as (b & _). contradiction.
      - destruct (in_dec string_dec (src e) prev) as [d|d]; [|apply b; apply MI; auto].
        destruct (HR _ c) as [_ [H|(e' & Ie' & H)]]; auto. rewrite H in d. apply (proj1 (S e' Ie') d). }
    assert (E2 : (into es I + into es B)%Qc = into es R).
    { unfold into. rewrite <- qsum_map_plus. apply qsum_map_ext. intros e Ie. destruct (S e Ie) as (S1 & S2 & S3 & S4).
      destruct (in_dec string_dec (dst e) I) as [a|a]; destruct (in_dec string_dec (dst e) B) as [b|b]; destruct (in_dec string_dec (dst e) R) as [c|c]; try ring; exfalso.
      - apply MI in a as (_ & _ & a & _). apply MB in b as (_ & b). auto.
      - apply MI in a as (a & _). auto.
      - apply MI in a as (a & _). auto.
      - apply MB in b as (b & _). auto.
      - destruct (in_dec string_dec (dst e) now) as [d|d]; [apply b; apply MB; auto|apply a; apply MI; auto]. }
    assert (E3 : out_of es I = into es I).
    { rewrite <- out_sum, <- in_sum by auto. apply qsum_map_ext. intros n J. apply MI in J as (_ & J1 & J2 & J3). apply C; auto. }
    assert (E4 : (out_of es R <= into es R)%Qc).
    { apply qsum_map_le. intros e Ie. specialize (P e Ie). destruct (in_dec string_dec (src e) R) as [a|a]; destruct (in_dec string_dec (dst e) R) as [b|b]; auto; try qc_lra.
      destruct (Qclt_le_dec 0 (w e)) as [Q|Q]; auto. exfalso. apply b. apply Cl; auto. }
    rewrite <- E1, <- E2, E3 in E4. qc_lra.
Qed.
End Cut.

Lemma plan_route edges es_idx e2c depots varis sub_nodes sub_edges c w u : wf_pipes edges es_idx e2c depots varis sub_nodes sub_edges ->
  staged edges depots sub_nodes sub_edges -> plan edges depots sub_nodes sub_edges c w u -> (0 < plan_value depots u)%Qc ->
  exists d, route edges w depots sub_edges (List.length sub_nodes) d.
Proof.
  intros (Nd & _ & _ & Ls & Ld & Nn & Ne) St (P1 & P2 & P3 & P4) V.
  assert (Pw : forall e, In e (keys edges) -> (0 <= w e)%Qc) by (intros e I; apply P1; auto).
  assert (X : forall m, (m <= List.length sub_nodes)%nat -> exists A, NoDup A /\ (forall a, In a A -> route edges w depots sub_edges m a) /\ A <> [] /\
    (m < List.length sub_nodes -> (plan_value depots u <= out_of edges w (keys edges) A)%Qc)%nat).
  { induction m as [|m IH]; intros Lm.
    - exists (nth 0 depots []). assert (N0 : NoDup (nth 0 depots [])) by (apply Nn; apply nth_In; lia). split; auto. split; [auto|]. split.
      + unfold plan_value in V. intros E. rewrite E in V. cbn in V. qc_lra.
      + intros _. rewrite <- out_sum by auto. unfold plan_value. rewrite (qsum_map_ext u (flow_out edges w (keys edges))); [apply Qcle_refl|]. intros o I. symmetry. auto.
    - destruct IH as (A & NA & RA & _ & VA); [lia|]. specialize (VA Lm).
      assert (Ie : In (nth m sub_edges []) sub_edges) by (apply nth_In; lia). destruct (Ne _ Ie) as [Ne1 Ne2]. destruct (St m Lm) as [St1 St2]. destruct (P3 m Lm) as [P3a P3b].
      assert (IA : incl A (nth m depots [])). { intros a I. specialize (RA a I). destruct m; [exact RA|]. apply RA. }
      destruct (stage_cut edges w (nth m sub_edges []) (nth m sub_nodes []) (nth m depots []) (nth (S m) depots []) A) as (B & NB & IB & WB & OB); auto.
      assert (OA : (out_of edges w (keys edges) A <= out_of edges w (nth m sub_edges []) A)%Qc).
      { unfold out_of.
        rewrite (qsum_map_ext (fun e => if in_dec string_dec (fst (ends edges e)) A then w e else 0%Qc) (fun e => if (fun e => if in_dec string_dec (fst (ends edges e)) A then true else false) e then w e else 0%Qc) (keys edges)) by (intros e _; destruct (in_dec _ _ _); auto).
        rewrite (qsum_map_ext (fun e => if in_dec string_dec (fst (ends edges e)) A then w e else 0%Qc) (fun e => if (fun e => if in_dec string_dec (fst (ends edges e)) A then true else false) e then w e else 0%Qc) (nth m sub_edges [])) by (intros e _; destruct (in_dec _ _ _); auto).
        rewrite <- !qsum_filter. apply qsum_incl.
        - apply NoDup_filter. auto.
        - intros e J. apply filter_In in J as [J1 J2]. apply filter_In. split; auto. apply St1; auto. destruct (in_dec string_dec (fst (ends edges e)) A); [auto|discriminate J2].
        - intros e J. apply filter_In in J as [J _]. auto. }
      assert (VB : (plan_value depots u <= into edges w (nth m sub_edges []) B)%Qc) by (apply Qcle_trans with (out_of edges w (nth m sub_edges []) A); auto; apply Qcle_trans with (out_of edges w (keys edges) A); auto).
      exists B. split; auto. split; [|split].
      + intros b I. split; [apply IB; auto|]. destruct (WB b I) as (a & Ia & Wa). exists a. split; auto.
      + intros ->. unfold into in VB. rewrite qsum_map_zero in VB; [qc_lra|]. intros e _. destruct (in_dec _ _ _) as [[]|]; auto.
      + intros Lt. rewrite <- out_sum by auto. rewrite (qsum_map_ext _ (flow_in edges w (keys edges))) by (intros b I; apply (P4 (S m)); auto; lia).
        rewrite in_sum by auto. apply Qcle_trans with (into edges w (nth m sub_edges []) B); auto. apply qsum_incl; auto.
        intros e J. destruct (in_dec _ _ _); [auto|apply Qcle_refl]. }
  destruct (X (List.length sub_nodes)) as (A & _ & R & Ne' & _); [lia|]. destruct A as [|a A]; [contradiction|]. exists a. apply R. left. auto.
Qed.
