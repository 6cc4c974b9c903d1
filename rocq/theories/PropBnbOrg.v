(** C77: the branch and bound that returns its branches. *)
From Coq Require Import ZArith List String Bool Arith QArith Qcanon Lia Permutation.
From Verif Require Import Py PyFacts Num Vari VariFacts Brc SpecBrc BrcFacts Bnb SpecBnb BnbFacts BnbDir PathModel PathFacts PropBnb BnbOrg BnbOrgFacts.
Import ListNotations.
Open Scope string_scope.
Open Scope Z_scope.
Open Scope list_scope.

(** a start branch: states are right, different, and the lower one is not below that of
    the entry without path *)
Definition start_ok (names : list string) (pti : list path_entry) (b : bb) : Prop :=
  bb_ok names pti b /\ fl b <> fu b /\ forall e l, pti = e :: l -> pe_state e <= fl b.

Lemma start_bbok names pti b : paths_ok names pti -> start_ok names pti b -> bbok names pti b /\ above pti b /\ complete b = false.
Proof.
  intros PO (B & D & A). split; [apply bbok_spec; auto; eapply Hp; eauto|]. split; [|apply Z.eqb_neq; auto].
  intros e He. destruct pti as [|e' l]; [discriminate|]. injection He as <-. eapply A. reflexivity.
Qed.

(** the result is an exact partition into boxes of equal system state *)
Theorem C77_exact :
  forall names pti bstars fuel,
    NoDup names -> paths_ok names pti -> (forall b, In b bstars -> start_ok names pti b) ->
    (forall x, In x (arc_states names) -> (covered bstars x <= 1)%nat) -> (List.length (arc_states names) < fuel)%nat ->
    exists r, branch_and_bound_org fuel bstars pti 1 = Ok r /\
      (forall x, In x (arc_states names) -> covered r x = covered bstars x) /\
      forall b, In b r -> bb_ok names pti b /\ fl b = fu b /\
        (forall x, In x (arc_states names) -> in_bb b x = true -> eval_sys_state pti x 1 = Ok (fl b)) /\
        exists x, In x (arc_states names) /\ in_bb b x = true.
Proof.
  intros names pti bstars fuel Nn PO HB H1 Hf. pose proof (Hp names pti PO) as HP. pose proof (Hin names pti PO) as HI.
  assert (HB' : forall b, In b bstars -> bbok names pti b /\ above pti b /\ complete b = false) by (intros b Hb; apply start_bbok; auto).
  destruct (org_ok names Nn pti PO fuel bstars (mk_locals None None) [] HB' H1) as (r & E & P).
  { eapply Nat.le_lt_trans; [apply total_le; auto|auto]. }
  exists r. split; [exact E|].
  destruct (run_ok names pti Nn PO (S (List.length names)) bstars) as (cs & Ec & Cov & Bc); auto.
  { intros b Hb. apply HB'; auto. }
  { intros b Hb. apply HB'; auto. }
  { intros b Hb. pose proof (undec_le names b). lia. }
  assert (Q : Permutation r (flat_map (filter complete) cs)).
  { rewrite P. symmetry. apply (run_perm names Nn pti PO (S (List.length names))); auto. intros b Hb. split; apply HB'; auto. }
  split.
  - intros x Hx. rewrite (covered_perm _ _ x Q). auto.
  - intros b Hb. apply (Permutation_in _ Q) in Hb. destruct (Bc b Hb) as [B C]. split; [apply (bbok_spec names pti HP); auto|].
    split; [apply Z.eqb_eq; auto|]. split.
    + intros x Hx I. rewrite (eval_as names pti HP HI x Hx). f_equal. symmetry. apply ev_unique. apply (saved_state names); auto.
    + exists (lower b). split; [apply B|]. apply (in_bb_lower names Nn pti); auto.
Qed.
Print Assumptions C77_exact.

(** and the same branches that [branch_and_bound] writes *)
Theorem C77_same :
  forall names pti bstars key d fuel fuel',
    NoDup names -> paths_ok names pti -> (forall b, In b bstars -> start_ok names pti b) ->
    (forall x, In x (arc_states names) -> (covered bstars x <= 1)%nat) ->
    NoDup (keys d) -> (forall f, In f d -> glob_match key (fst f) = false) ->
    (List.length (arc_states names) < fuel)%nat -> (List.length names < fuel')%nat ->
    exists r d', branch_and_bound_org fuel bstars pti 1 = Ok r /\ branch_and_bound fuel' bstars pti 1 key d = Ok d' /\
      Permutation r (get_sb_saved d' key).
Proof.
  intros names pti bstars key d fuel fuel' Nn PO HB H1 Nd Hd Hf Hf'.
  assert (HB' : forall b, In b bstars -> bbok names pti b /\ above pti b /\ complete b = false) by (intros b Hb; apply start_bbok; auto).
  destruct (org_ok names Nn pti PO fuel bstars (mk_locals None None) [] HB' H1) as (r & E & P).
  { eapply Nat.le_lt_trans; [apply total_le; auto|auto]. }
  destruct (run_ok names pti Nn PO fuel' bstars) as (cs & Ec & _); auto.
  { intros b Hb. apply HB'; auto. }
  { intros b Hb. apply HB'; auto. }
  { intros b Hb. pose proof (undec_le names b). lia. }
  exists r, (write key 0 cs d). split; [exact E|]. split; [unfold branch_and_bound; rewrite loop_run, Ec; auto|].
  rewrite (saved_write key cs d Nd). rewrite (saved_none (unwritten key 0 (List.length cs) d)), app_nil_r.
  - rewrite P. symmetry. apply (run_perm names Nn pti PO fuel'); auto. intros b Hb. split; apply HB'; auto.
  - intros f F. apply filter_In in F as [F _]. auto.
Qed.
Print Assumptions C77_same.

Definition left_star : bb := (arcs3 0 0 0, arcs3 0 1 1, 0, 1).
Definition right_star : bb := (arcs3 1 0 0, arcs3 1 1 1, 0, 2).
Lemma two_stars_ok : forall b, In b [left_star; right_star] -> start_ok ex_edges ex_pti b.
Proof.
  assert (HP : ex_pti <> []) by discriminate.
  intros b [<-|[<-|[]]]; (split; [apply (bbok_spec ex_edges ex_pti HP); split; [apply arcs3_in; lia|]; split; [apply arcs3_in; lia|];
    split; [intros k [<-|[<-|[<-|[]]]]; cbn; lia|]; split; vm_compute; congruence|]); (split; [cbn; lia|]);
    intros e l [= <- _]; cbn; lia.
Qed.
Example C77_ex :
  NoDup ex_edges /\ paths_ok ex_edges ex_pti /\ (forall b, In b [left_star; right_star] -> start_ok ex_edges ex_pti b) /\
  (forall x, In x (arc_states ex_edges) -> covered [left_star; right_star] x = 1%nat) /\ List.length (arc_states ex_edges) = 8%nat /\
  ok_val (l <- branch_and_bound_org 9 [left_star; right_star] ex_pti 1 ;; Ok (map show_bb l)) =
    Some [([1; 0; 0], [1; 1; 1], 2, 2); ([0; 0; 0], [0; 0; 1], 0, 0); ([0; 1; 0], [0; 1; 0], 0, 0); ([0; 1; 1], [0; 1; 1], 1, 1)] /\
  ok_val (d <- branch_and_bound 4 [left_star; right_star] ex_pti 1 "a" [("sb_dump_b_0.json", [ex_star])] ;; Ok (map show_bb (get_sb_saved d "a")))
   = Some [([0; 0; 0], [0; 0; 1], 0, 0); ([0; 1; 0], [0; 1; 0], 0, 0); ([0; 1; 1], [0; 1; 1], 1, 1); ([1; 0; 0], [1; 1; 1], 2, 2)].
Proof.
  split; [apply ex_edges_nodup|]. split; [apply ex_paths_ok|]. split; [apply two_stars_ok|]. split.
  { intros x Hx. cbn in Hx. repeat (destruct Hx as [<-|Hx]; [reflexivity|]). destruct Hx. }
  split; [reflexivity|]. split; vm_compute; reflexivity.
Qed.

(** the second version of [get_arcs_given_bstar]: the same if a path survives *)
Theorem C77_nobreak :
  forall b pti cond,
    ((exists e, In e (skipn 1 pti) /\ forall k, In k (pe_path e) -> In (k, cond) (upper b)) ->
       get_arcs_given_bstar_nobreak b pti cond = get_arcs_given_bstar b pti cond) /\
    ((forall e, In e (skipn 1 pti) -> exists k, In k (pe_path e) /\ ~ In (k, cond) (upper b)) ->
       get_arcs_given_bstar_nobreak b pti cond = Err TypeError /\ get_arcs_given_bstar b pti cond = Ok []).
Proof.
  intros b pti cond. unfold get_arcs_given_bstar_nobreak, get_arcs_given_bstar.
  assert (M : forall p, forallb (fun x => mem_str x (map fst (filter (fun kv => snd kv =? cond) (upper b)))) p = true <->
    forall k, In k p -> In (k, cond) (upper b)).
  { intros p. rewrite forallb_forall. split; intros H k Hk; specialize (H k Hk).
    - apply mem_str_In, in_map_iff in H as ((k' & v) & E & H). cbn in E. subst k'. apply filter_In in H as [H V]. cbn in V.
      assert (v = cond) by lia. subst v. auto.
    - apply mem_str_In, in_map_iff. exists (k, cond). split; auto. apply filter_In. cbn. rewrite Z.eqb_refl. auto. }
  induction (skipn 1 pti) as [|e l IH]; cbn [find arcs_loop].
  - split; [intros (e & [] & _)|auto].
  - destruct (forallb _ (pe_path e)) eqn:F.
    + split; auto. intros H. exfalso. destruct (H e (or_introl eq_refl)) as (k & Hk & N). apply N. apply (proj1 (M _) F); auto.
    + split.
      * intros (e' & [<-|He'] & H); [apply M in H; congruence|]. apply IH. eauto.
      * intros H. apply IH. intros e' He'. apply H. right; auto.
Qed.
Print Assumptions C77_nobreak.
Example C77_nobreak_ex :
  get_arcs_given_bstar_nobreak left_star ex_pti 1 = Ok ["e2"; "e3"] /\ get_arcs_given_bstar left_star ex_pti 1 = Ok ["e2"; "e3"] /\
  get_arcs_given_bstar_nobreak (arcs3 0 0 0, arcs3 0 0 1, 0, 0) ex_pti 1 = Err TypeError /\
  get_arcs_given_bstar (arcs3 0 0 0, arcs3 0 0 1, 0, 0) ex_pti 1 = Ok [] /\
  In (["e2"; "e3"], VNum (q1 2 1), 1) (skipn 1 ex_pti) /\ In ("e2", 1) (upper left_star) /\ In ("e3", 1) (upper left_star).
Proof. repeat (split; [reflexivity|]). split; [right; left; reflexivity|]. split; cbn; auto. Qed.

(** Start branches with equal states: without a surviving path the variables are not bound *)
Theorem C77_disconnected_refuted :
  exists names pti b, NoDup names /\ paths_ok names pti /\ bb_ok names pti b /\ fl b = fu b /\
    branch_and_bound_org 10 [b] pti 1 = Err UnboundLocalError.
Proof.
  assert (HP : ex_pti <> []) by discriminate.
  exists ex_edges, ex_pti, (arcs3 0 0 0, arcs3 0 0 1, 0, 0). split; [apply ex_edges_nodup|]. split; [apply ex_paths_ok|]. split; [|split; reflexivity].
  apply (bbok_spec ex_edges ex_pti HP). split; [apply arcs3_in; lia|]. split; [apply arcs3_in; lia|].
  split; [intros k [<-|[<-|[<-|[]]]]; cbn; lia|]. split; vm_compute; congruence.
Qed.
Print Assumptions C77_disconnected_refuted.
(** or still hold those of the branch before: parts of its box are returned once more, with a wrong state *)
Theorem C77_stale_refuted :
  exists names pti bstars r x b b', NoDup names /\ paths_ok names pti /\ (forall b, In b bstars -> bb_ok names pti b) /\
    (forall x, In x (arc_states names) -> (covered bstars x <= 1)%nat) /\ branch_and_bound_org 10 bstars pti 1 = Ok r /\
    In x (arc_states names) /\ In b r /\ In b' r /\ in_bb b x = true /\ in_bb b' x = true /\ fl b <> fl b' /\
    eval_sys_state pti x 1 <> Ok (fl b').
Proof.
  assert (HP : ex_pti <> []) by discriminate.
  exists ex_edges, ex_pti, [right_star; (arcs3 0 0 0, arcs3 0 0 1, 0, 0)]. eexists. exists (arcs3 1 1 1), (arcs3 1 0 0, arcs3 1 1 1, 2, 2), (arcs3 1 0 1, arcs3 1 1 1, 0, 0).
  split; [apply ex_edges_nodup|]. split; [apply ex_paths_ok|]. split.
  { intros b [<-|[<-|[]]]; apply (bbok_spec ex_edges ex_pti HP); (split; [apply arcs3_in; lia|]); (split; [apply arcs3_in; lia|]);
    (split; [intros k [<-|[<-|[<-|[]]]]; cbn; lia|]); split; vm_compute; congruence. }
  split.
  { intros x Hx. cbn in Hx. repeat (destruct Hx as [<-|Hx]; [cbn; lia|]). destruct Hx. }
  split; [vm_compute; reflexivity|]. split; [apply arcs3_in; lia|]. split; [cbn; auto 10|]. split; [cbn; auto 10|].
  split; [reflexivity|]. split; [reflexivity|]. split; [cbn; lia|]. vm_compute. congruence.
Qed.
Print Assumptions C77_stale_refuted.
(** with three states per arc the best state is lost *)
Theorem C77_three_states_refuted :
  exists pti b x r, branch_and_bound_org 10 [b] pti 2 = Ok r /\
    In (lower b) (space [("e1", 3)]) /\ In (upper b) (space [("e1", 3)]) /\ In x (space [("e1", 3)]) /\
    in_bb b x = true /\ covered r x = 0%nat.
Proof.
  exists [([], VInf, 0); (["e1"], VNum (q1 1 1), 1)], ([("e1", 0)], [("e1", 2)], 0, 1), [("e1", 2)]. eexists.
  split; [vm_compute; reflexivity|]. split; [vm_compute; auto|]. split; [vm_compute; auto|]. split; [vm_compute; auto|]. split; reflexivity.
Qed.
Print Assumptions C77_three_states_refuted.
