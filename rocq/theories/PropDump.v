(** C88: taking up a branch and bound from one of its files. *)
From Coq Require Import ZArith List String Bool Arith QArith Qcanon Lia Permutation.
From Verif Require Import Py PyFacts Num Vari Brc SpecBrc BrcFacts Bnb SpecBnb BnbFacts BnbDir PropBnb BnbDump SpecDump.
Import ListNotations.
Open Scope string_scope.
Open Scope Z_scope.
Open Scope list_scope.

(** A file is split into the branches to go on with and the finished ones, in its order. *)
Theorem C88_split : forall d f l, dfind d f = Some l ->
  exists todo fin, get_bstars_from_sb_dump d f = Ok todo /\ get_sb_saved_from_sb_dump d f = Ok fin /\ merged todo fin l /\
    (forall b, In b todo -> fl b <> fu b) /\ (forall b, In b fin -> fl b = fu b).
Proof.
  intros d f l E. unfold get_bstars_from_sb_dump, get_sb_saved_from_sb_dump, load. rewrite E. cbn [bind].
  eexists. eexists. split; [reflexivity|]. split; [reflexivity|]. split; [|split].
  - clear E. induction l as [|b l IH]; cbn [filter]; [constructor|]. destruct (fl b =? fu b); cbn [negb]; constructor; auto.
  - intros b Hb. apply filter_In in Hb as [_ Hb]. apply negb_true_iff, Z.eqb_neq in Hb. auto.
  - intros b Hb. apply filter_In in Hb as [_ Hb]. apply Z.eqb_eq in Hb. auto.
Qed.
Print Assumptions C88_split.
(** No such file. *)
Theorem C88_missing : forall d f, (get_bstars_from_sb_dump d f = Err FileNotFoundError <-> ~ In f (keys d)) /\
  (get_sb_saved_from_sb_dump d f = Err FileNotFoundError <-> ~ In f (keys d)).
Proof.
  intros d f. unfold get_bstars_from_sb_dump, get_sb_saved_from_sb_dump, load. rewrite <- dfind_none.
  destruct (dfind d f); cbn [bind]; split; split; auto; intros; discriminate.
Qed.
Print Assumptions C88_missing.
(** The finished branches of a job are those of its files, one after the other. *)
Theorem C88_job : forall d key, NoDup (keys d) ->
  exists ls, mapM (get_sb_saved_from_sb_dump d) (filter (glob_match key) (keys d)) = Ok ls /\ get_sb_saved d key = List.concat ls.
Proof.
  intros d key N. assert (G : forall d', NoDup (keys d') -> (forall f l, In (f, l) d' -> dfind d f = Some l) ->
    exists ls, mapM (get_sb_saved_from_sb_dump d) (filter (glob_match key) (keys d')) = Ok ls /\ get_sb_saved d' key = List.concat ls).
  { clear N. induction d' as [|[f l] d' IH]; intros N H; [exists []; auto|]. inversion_clear N as [|? ? N1 N2].
    destruct (IH N2) as (ls & E1 & E2); [intros; apply H; right; auto|]. cbn [keys map fst filter] in *. unfold get_sb_saved in *. cbn [flat_map fst snd].
    destruct (glob_match key f); [|exists ls; auto]. exists (filter complete l :: ls). cbn [mapM].
    unfold get_sb_saved_from_sb_dump at 1. unfold load. rewrite (H f l) by (left; auto). cbn [bind]. unfold keys in E1. rewrite E1. cbn [bind]. split; [reflexivity|].
    cbn [List.concat]. rewrite E2. reflexivity. }
  apply G; auto. intros f l I. apply In_dfind; auto.
Qed.
Print Assumptions C88_job.

(** ** Rounds *)
Lemma run_more pti c fuel : forall bs cs fuel', bnb_run fuel bs pti c = Ok cs -> (fuel <= fuel')%nat -> bnb_run fuel' bs pti c = Ok cs.
Proof.
  induction fuel as [|fuel IH]; intros [|b bs] cs fuel' H L.
  - destruct fuel'; exact H.
  - discriminate.
  - destruct fuel'; exact H.
  - destruct fuel' as [|fuel']; [lia|]. cbn [bnb_run] in *. destruct (bnb_core (b :: bs) pti c) as [rs|]; cbn [bind] in *; [|discriminate].
    destruct (bnb_run fuel _ pti c) as [cs'|] eqn:E; cbn [bind] in H; [|discriminate]. rewrite (IH _ _ fuel' E) by lia. exact H.
Qed.
Lemma run_rest pti c fuel : forall bs cs i l, bnb_run fuel bs pti c = Ok cs -> nth_error cs i = Some l ->
  bnb_run fuel (filter (fun x => negb (complete x)) l) pti c = Ok (skipn (S i) cs).
Proof.
  induction fuel as [|fuel IH]; intros [|b bs] cs i l H E.
  - injection H as <-. destruct i; discriminate.
  - discriminate.
  - injection H as <-. destruct i; discriminate.
  - cbn [bnb_run] in H. destruct (bnb_core (b :: bs) pti c) as [rs|]; cbn [bind] in H; [|discriminate].
    destruct (bnb_run fuel _ pti c) as [cs'|] eqn:E'; cbn [bind] in H; [|discriminate]. injection H as <-. destruct i as [|i].
    + cbn in E. injection E as <-. cbn [skipn]. eapply run_more; eauto.
    + cbn [nth_error] in E. change (skipn (S (S i)) (?a :: cs')) with (skipn (S i) cs'). eapply run_more; [eapply IH; eauto|lia].
Qed.
Lemma write_fresh key : forall cs i d, (forall j, (i <= j)%nat -> ~ In (dump_name key j) (keys d)) ->
  write key i cs d = d ++ combine (map (dump_name key) (seq i (List.length cs))) cs.
Proof.
  induction cs as [|c cs IH]; intros i d H; cbn [write List.length seq map combine]; [rewrite app_nil_r; auto|].
  assert (K : dset d (dump_name key i) c = d ++ [(dump_name key i, c)]).
  { specialize (H i (le_n i)). revert H. generalize (dump_name key i) as k. clear. intros k H. induction d as [|[k' w] d IH]; auto.
    cbn [dset]. destruct (String.eqb_spec k k') as [->|]; [exfalso; apply H; left; auto|]. cbn [app]. f_equal. apply IH. intros X; apply H; right; auto. }
  rewrite K, IH, <- app_assoc; auto. intros j Hj X. unfold keys in X. rewrite map_app in X. apply in_app_or in X as [X|[X|[]]]; [apply (H j); [lia|auto]|].
  apply dump_inj in X. lia.
Qed.
Lemma write_find key : forall cs i d j, dfind (write key i cs d) (dump_name key j) =
  match (if (i <=? j)%nat then nth_error cs (j - i) else None) with Some c => Some c | None => dfind d (dump_name key j) end.
Proof.
  induction cs as [|c cs IH]; intros i d j; cbn [write].
  - destruct (i <=? j)%nat; auto. destruct (j - i)%nat; auto.
  - rewrite IH, dfind_dset. destruct (Nat.leb_spec i j) as [L|L].
    + destruct (String.eqb_spec (dump_name key j) (dump_name key i)) as [E|E].
      * apply dump_inj in E. subst j. destruct (Nat.leb_spec (S i) i) as [L'|_]; [lia|]. rewrite Nat.sub_diag. auto.
      * destruct (Nat.leb_spec (S i) j) as [L'|L']; [|exfalso; apply E; f_equal; lia].
        replace (j - i)%nat with (S (j - S i)) by lia. auto.
    + destruct (Nat.leb_spec (S i) j); [lia|]. destruct (String.eqb_spec (dump_name key j) (dump_name key i)) as [E|E]; auto.
      apply dump_inj in E. lia.
Qed.
Lemma fresh_write key cs : write key 0 cs [] = combine (map (dump_name key) (seq 0 (List.length cs))) cs.
Proof. rewrite write_fresh; auto. Qed.
Lemma fresh_len key cs : List.length (write key 0 cs []) = List.length cs.
Proof. rewrite fresh_write, combine_length, map_length, seq_length. lia. Qed.
Lemma firstn_combine {A B} n : forall (l : list A) (m : list B), firstn n (combine l m) = combine (firstn n l) (firstn n m).
Proof. induction n as [|n IH]; intros [|a l] [|b m]; cbn; auto. f_equal. auto. Qed.
Lemma firstn_fresh key cs n : firstn n (write key 0 cs []) = write key 0 (firstn n cs) [].
Proof.
  rewrite !fresh_write, firstn_combine. f_equal. rewrite firstn_map. f_equal. rewrite firstn_length.
  destruct (Nat.le_ge_cases n (List.length cs)).
  - rewrite Nat.min_l by auto. clear -H. revert n H. generalize 0%nat. induction (List.length cs) as [|m IH]; intros i [|n] H; cbn; auto; try lia. f_equal. apply IH. lia.
  - rewrite Nat.min_r by auto. apply firstn_all2. rewrite seq_length. auto.
Qed.
Lemma saved_fresh key cs : Permutation (get_sb_saved (write key 0 cs []) key) (flat_map (filter complete) cs).
Proof. rewrite (saved_write key cs [] (NoDup_nil _)). cbn [unwritten filter get_sb_saved flat_map]. rewrite app_nil_r. auto. Qed.

(** ** Taking up *)
(** The branches to go on with from file [i] lead to the contents of the files after it,
    counted from 0; nothing else in the directory changes. *)
Theorem C88_resume : forall fuel bstars pti cond key d0 i,
  branch_and_bound fuel bstars pti cond key [] = Ok d0 -> (i < List.length d0)%nat ->
  exists todo, get_bstars_from_sb_dump d0 (dump_name key i) = Ok todo /\
    forall fuel' key' d, (fuel <= fuel')%nat ->
      exists d', branch_and_bound fuel' todo pti cond key' d = Ok d' /\
        (forall j, (i + 1 + j < List.length d0)%nat -> dfind d' (dump_name key' j) = dfind d0 (dump_name key (i + 1 + j))) /\
        (forall f, (forall j, (i + 1 + j < List.length d0)%nat -> f <> dump_name key' j) -> dfind d' f = dfind d f).
Proof.
  intros fuel bstars pti cond key d0 i E L. unfold branch_and_bound in E. rewrite loop_run in E.
  destruct (bnb_run fuel bstars pti cond) as [cs|] eqn:R; cbn [bind] in E; [|discriminate]. injection E as <-. rewrite fresh_len in *.
  destruct (nth_error cs i) as [l|] eqn:El; [|apply nth_error_None in El; lia].
  assert (F : forall j, dfind (write key 0 cs []) (dump_name key j) = nth_error cs j).
  { intros j. rewrite write_find. cbn [Nat.leb]. rewrite Nat.sub_0_r. destruct (nth_error cs j); auto. }
  unfold get_bstars_from_sb_dump, load. rewrite F, El. cbn [bind]. eexists. split; [reflexivity|].
  intros fuel' key' d Hf. exists (write key' 0 (skipn (S i) cs) d). split; [|split].
  - unfold branch_and_bound. rewrite loop_run. fold complete. pose proof (run_more _ _ _ _ _ fuel' (run_rest _ _ _ _ _ _ _ R El) Hf) as X. unfold complete in X. rewrite X. reflexivity.
  - intros j Hj. rewrite F, write_find. cbn [Nat.leb]. rewrite Nat.sub_0_r.
    assert (Es : nth_error (skipn (S i) cs) j = nth_error cs (i + 1 + j)).
    { replace (i + 1 + j)%nat with (S i + j)%nat by lia. generalize (S i). clear. intros n. revert cs. induction n as [|n IH]; intros [|c cs]; cbn [skipn]; [reflexivity|reflexivity|destruct j; reflexivity|apply IH]. }
    rewrite Es. destruct (nth_error cs (i + 1 + j)) eqn:En; auto. apply nth_error_None in En. lia.
  - intros f Hf'. assert (Hl : forall j, (j < List.length (skipn (S i) cs))%nat -> f <> dump_name key' j).
    { intros j Hj. apply Hf'. rewrite skipn_length in Hj. lia. }
    revert Hl. clear. generalize (skipn (S i) cs). intros l. intros H.
    assert (G : forall l k d, (forall j, (k <= j < k + List.length l)%nat -> f <> dump_name key' j) -> dfind (write key' k l d) f = dfind d f).
    { clear. induction l as [|c l IH]; intros k d H; auto. cbn [write]. rewrite IH, dfind_dset by (intros; apply H; cbn [List.length]; lia).
      destruct (String.eqb_spec f (dump_name key' k)) as [E|]; auto. destruct (H k); [cbn [List.length]; lia|auto]. }
    apply G. intros j Hj. apply H. lia.
Qed.
Print Assumptions C88_resume.

(** The finished branches of the files up to [i] and those of the run taken up are those of the
    whole run. *)
Theorem C88_union : forall fuel fuel' bstars pti cond key key' d0 i todo d',
  branch_and_bound fuel bstars pti cond key [] = Ok d0 -> (i < List.length d0)%nat -> (fuel <= fuel')%nat ->
  get_bstars_from_sb_dump d0 (dump_name key i) = Ok todo -> branch_and_bound fuel' todo pti cond key' [] = Ok d' ->
  Permutation (get_sb_saved (firstn (S i) d0) key ++ get_sb_saved d' key') (get_sb_saved d0 key).
Proof.
  intros fuel fuel' bstars pti cond key key' d0 i todo d' E L Hf Et E'. unfold branch_and_bound in E, E'. rewrite loop_run in E, E'.
  destruct (bnb_run fuel bstars pti cond) as [cs|] eqn:R; cbn [bind] in E; [|discriminate]. injection E as <-. rewrite fresh_len in *.
  destruct (nth_error cs i) as [l|] eqn:El; [|apply nth_error_None in El; lia].
  unfold get_bstars_from_sb_dump, load in Et. rewrite write_find in Et. cbn [Nat.leb] in Et. rewrite Nat.sub_0_r, El in Et. cbn [bind] in Et. injection Et as <-.
  pose proof (run_more _ _ _ _ _ fuel' (run_rest _ _ _ _ _ _ _ R El) Hf) as X. unfold complete in X. rewrite X in E'. cbn [bind] in E'. injection E' as <-.
  rewrite firstn_fresh, !saved_fresh, <- flat_map_app, firstn_skipn. auto.
Qed.
Print Assumptions C88_union.

(** So nothing is lost and nothing counted twice: a run stopped after file [i] and taken up
    under another name covers what the first branches covered, with the right states. *)
Theorem C88_exact : forall names pti bstars key key' fuel fuel' d0 i,
  NoDup names -> paths_ok names pti -> (forall b, In b bstars -> bb_ok names pti b /\ fl b <> fu b) ->
  (forall x, In x (arc_states names) -> (covered bstars x <= 1)%nat) ->
  (List.length names < fuel)%nat -> (fuel <= fuel')%nat ->
  branch_and_bound fuel bstars pti 1 key [] = Ok d0 -> (i < List.length d0)%nat ->
  exists todo d', get_bstars_from_sb_dump d0 (dump_name key i) = Ok todo /\ branch_and_bound fuel' todo pti 1 key' [] = Ok d' /\
    let all := get_sb_saved (firstn (S i) d0) key ++ get_sb_saved d' key' in
    (forall x, In x (arc_states names) -> covered all x = covered bstars x) /\
    forall b x, In b all -> In x (arc_states names) -> in_bb b x = true -> eval_sys_state pti x 1 = Ok (fl b).
Proof.
  intros names pti bstars key key' fuel fuel' d0 i Nn PO HB H1 Hn Hf E L.
  destruct (C88_resume _ _ _ _ _ _ _ E L) as (todo & Et & R). destruct (R fuel' key' [] Hf) as (d' & E' & _).
  exists todo, d'. split; auto. split; auto. cbv zeta.
  pose proof (C88_union _ _ _ _ _ _ _ _ _ _ _ E L Hf Et E') as P.
  destruct (C44_exact names pti bstars key [] fuel Nn PO HB H1 (NoDup_nil _)) as (d0' & E0 & Cov & St); auto; [intros f []|].
  rewrite E in E0. injection E0 as <-. split.
  - intros x Hx. rewrite (covered_perm _ _ _ P). auto.
  - intros b x Hb Hx Hi. apply (Permutation_in _ P) in Hb. apply (St b Hb); auto.
Qed.
Print Assumptions C88_exact.

Example C88_ex :
  NoDup ex_edges /\ paths_ok ex_edges ex_pti /\ (forall b, In b [ex_star] -> bb_ok ex_edges ex_pti b /\ fl b <> fu b) /\
  (forall x, In x (arc_states ex_edges) -> (covered [ex_star] x <= 1)%nat) /\
  ok_val (d <- branch_and_bound 4 [ex_star] ex_pti 1 "a" [] ;;
          todo <- get_bstars_from_sb_dump d "sb_dump_a_0.json" ;;
          fin <- get_sb_saved_from_sb_dump d "sb_dump_a_0.json" ;;
          d' <- branch_and_bound 4 todo ex_pti 1 "b" [] ;;
          Ok (List.length d, map show_bb todo, map show_bb fin, keys d', map show_bb (get_sb_saved d' "b")))
  = Some (2%nat, [([0; 0; 0], [0; 1; 1], 0, 1)], [([1; 0; 0], [1; 1; 1], 2, 2)], ["sb_dump_b_0.json"],
          [([0; 0; 0], [0; 0; 1], 0, 0); ([0; 1; 0], [0; 1; 0], 0, 0); ([0; 1; 1], [0; 1; 1], 1, 1)]) /\
  get_bstars_from_sb_dump [] "sb_dump_a_0.json" = Err FileNotFoundError.
Proof.
  split; [apply ex_edges_nodup|]. split; [apply ex_paths_ok|]. split; [|split; [|split; vm_compute; reflexivity]].
  - intros b [<-|[]]. apply ex_star_ok.
  - intros x Hx. cbn in Hx. repeat (destruct Hx as [<-|Hx]; [cbn; auto|]). destruct Hx.
Qed.

(** Taken up under its own name in the same directory it writes over its own files: the
    branches finished before are gone. *)
Theorem C88_same_key_refuted : ~ (forall names pti bstars key fuel d0 i todo d',
  NoDup names -> paths_ok names pti -> (forall b, In b bstars -> bb_ok names pti b /\ fl b <> fu b) ->
  (forall x, In x (arc_states names) -> (covered bstars x <= 1)%nat) -> (List.length names < fuel)%nat ->
  branch_and_bound fuel bstars pti 1 key [] = Ok d0 -> (i < List.length d0)%nat ->
  get_bstars_from_sb_dump d0 (dump_name key i) = Ok todo -> branch_and_bound fuel todo pti 1 key (firstn (S i) d0) = Ok d' ->
  forall x, In x (arc_states names) -> covered (get_sb_saved d' key) x = covered bstars x).
Proof.
  intros H. destruct C88_ex as (N & P & B & Cv & _).
  assert (E : covered (get_sb_saved [("sb_dump_a_0.json", [(arcs3 0 0 0, arcs3 0 0 1, 0, 0); (arcs3 0 1 0, arcs3 0 1 0, 0, 0); (arcs3 0 1 1, arcs3 0 1 1, 1, 1)])] "a") (arcs3 1 0 0) = covered [ex_star] (arcs3 1 0 0)); [|discriminate E].
  eapply (H ex_edges ex_pti [ex_star] "a" 4%nat _ 0%nat); auto.
  - vm_compute; reflexivity.
  - cbn. lia.
  - vm_compute; reflexivity.
  - vm_compute; reflexivity.
  - apply arcs3_in; lia.
Qed.
Print Assumptions C88_same_key_refuted.
