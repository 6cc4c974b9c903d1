(** C119: the groups of edges of demos/EMA/brc.py, and its [main]. *)
From Coq Require Import ZArith List String Bool Arith QArith Qcanon Lia Permutation.
From Verif Require Import Py PyFacts Num Vari Brc Cpm Model Bnb SpecBnb Trans SpecTrans NxPaths Config SpecConfig ConfigFacts WriteNet SpecWrite WriteFacts PropPfMap PropWrite BnbDir EmaBrc.
Import ListNotations.
Open Scope string_scope.
Open Scope Z_scope.
Open Scope list_scope.

(** The class of an edge is the third of the shuffled list in which its number stands. *)
Definition class_at (ints : list nat) (i : nat) (c : Z) : Prop :=
  exists p, nth_error ints p = Some i /\
    let g := (List.length ints / 3)%nat in
    c = if (p <? g)%nat then 0 else if (p <? 2 * g)%nat then 1 else 2.

Lemma ex_in i l : existsb (Nat.eqb i) l = true <-> In i l.
Proof. rewrite existsb_exists. split. - intros (x & Hx & E). apply Nat.eqb_eq in E. subst; auto. - intros H. exists i. split; auto. apply Nat.eqb_refl. Qed.
Lemma third (ints : list nat) : (2 * (List.length ints / 3) <= List.length ints)%nat.
Proof. assert (H := Nat.div_mod (List.length ints) 3). lia. Qed.
Lemma split3 (ints : list nat) : let g := (List.length ints / 3)%nat in
  ints = firstn g ints ++ skipn g (firstn (2 * g) ints) ++ skipn (2 * g) ints /\
  List.length (firstn g ints) = g /\ List.length (skipn g (firstn (2 * g) ints)) = g /\ List.length (skipn (2 * g) ints) = (List.length ints - 2 * g)%nat.
Proof.
  cbv zeta. assert (T := third ints). set (g := (List.length ints / 3)%nat) in *. repeat split.
  - rewrite <- (firstn_skipn (2 * g) ints) at 1. rewrite app_assoc. f_equal. rewrite <- (firstn_skipn g (firstn (2 * g) ints)) at 1. f_equal. rewrite firstn_firstn. f_equal. lia.
  - rewrite firstn_length. lia.
  - rewrite skipn_length, firstn_length. lia.
  - rewrite skipn_length. lia.
Qed.
Lemma index3 (ints : list nat) i : NoDup ints -> In i ints -> exists c, group_index (prob_groups ints) i = Ok c /\ class_at ints i c.
Proof.
  intros ND Hi. destruct (split3 ints) as (E & L1 & L2 & L3). unfold prob_groups, class_at. cbv zeta in *. set (g := (List.length ints / 3)%nat) in *.
  set (A := firstn g ints) in *. set (B := skipn g (firstn (2 * g) ints)) in *. set (D := skipn (2 * g) ints) in *.
  cbn [group_index]. destruct (existsb (Nat.eqb i) A) eqn:EA; [|destruct (existsb (Nat.eqb i) B) eqn:EB; [|destruct (existsb (Nat.eqb i) D) eqn:ED]].
  - apply ex_in, In_nth_error in EA as (p & Hp). exists 0. split; auto. exists p. assert (Lp : (p < List.length A)%nat) by (apply nth_error_Some; congruence).
    split; [rewrite E, nth_error_app1; auto|]. destruct (Nat.ltb_spec p g); auto; lia.
  - apply ex_in, In_nth_error in EB as (p & Hp). exists 1. split; auto. exists (g + p)%nat. assert (Lp : (p < List.length B)%nat) by (apply nth_error_Some; congruence).
    split; [rewrite E, nth_error_app2, L1 by lia; replace (g + p - g)%nat with p by lia; rewrite nth_error_app1; auto|].
    destruct (Nat.ltb_spec (g + p) g); [lia|]. destruct (Nat.ltb_spec (g + p) (2 * g)); auto; lia.
  - apply ex_in, In_nth_error in ED as (p & Hp). exists 2. split; auto. exists (2 * g + p)%nat.
    split; [rewrite E, nth_error_app2, L1 by lia; rewrite nth_error_app2, L2 by lia; replace (2 * g + p - g - g)%nat with p by lia; auto|].
    destruct (Nat.ltb_spec (2 * g + p) g); [lia|]. destruct (Nat.ltb_spec (2 * g + p) (2 * g)); auto; lia.
  - exfalso. rewrite E in Hi. rewrite !in_app_iff, <- !ex_in in Hi. destruct Hi as [H|[H|H]]; congruence.
Qed.

(** the names that the file gives to the edges *)
Definition edge_names (n : nat) : list string := map (fun i => ("e" ++ num_str (i + 1))%string) (seq 0 n).

(** Each of the n edges gets one class, by its place in the shuffled list. *)
Theorem C119_classes : forall n ints, Permutation ints (seq 0 n) ->
  exists pk, edge_classes ints n = Ok (combine (edge_names n) pk) /\ List.length pk = n /\
    forall i c, (i < n)%nat -> (nth_error pk i = Some c <-> class_at ints i c).
Proof.
  intros n ints P. assert (ND : NoDup ints) by (apply (Permutation_NoDup (Permutation_sym P)), seq_NoDup).
  assert (X : forall l, incl l ints -> exists pk, mapM (fun i => c <- group_index (prob_groups ints) i ;; Ok (("e" ++ num_str (i + 1))%string, c)) l =
              Ok (combine (map (fun i => ("e" ++ num_str (i + 1))%string) l) pk) /\ Forall2 (class_at ints) l pk).
  { induction l as [|i l IH]; intros I; [exists []; split; auto|]. destruct IH as (pk & E & F); [intros x Hx; apply I; right; auto|].
    destruct (index3 ints i ND) as (c & Ec & Hc); [apply I; left; auto|]. exists (c :: pk). cbn [mapM]. rewrite Ec. cbn [bind]. rewrite E. split; auto. }
  destruct (X (seq 0 n)) as (pk & E & F). { intros i Hi. apply (Permutation_in _ (Permutation_sym P) Hi). }
  exists pk. split; auto. split; [apply Forall2_length in F; rewrite <- F, seq_length; auto|].
  assert (U : forall i c c', class_at ints i c -> class_at ints i c' -> c = c').
  { intros i c c' (p & Hp & ->) (p' & Hp' & ->). assert (p = p'); [|subst; auto]. apply (proj1 (NoDup_nth_error ints) ND); [apply nth_error_Some; congruence|congruence]. }
  assert (Y : forall l k c, Forall2 (class_at ints) l k -> forall i, nth_error k i = Some c -> exists j, nth_error l i = Some j /\ class_at ints j c).
  { induction l as [|j l IH]; intros k c F' i Hi; inversion F' as [|? y ? k' H1 H2]; subst; destruct i as [|i]; try discriminate Hi; [injection Hi as ->; exists j; auto|]. exact (IH k' c H2 i Hi). }
  assert (Z : forall c i, (i < n)%nat -> nth_error pk i = Some c -> class_at ints i c).
  { intros c i Hi Hc. destruct (Y _ _ c F i Hc) as (j & Hj & Cj). assert (nth_error (seq 0 n) i = Some i); [|congruence].
    rewrite nth_error_nth' with (d := 0%nat) by (rewrite seq_length; auto). rewrite seq_nth; auto. }
  intros i c Hi. split; [apply Z; auto|]. intros Hc. destruct (nth_error pk i) as [c'|] eqn:En.
  - f_equal. apply (U i); auto.
  - apply nth_error_None in En. apply Forall2_length in F. rewrite seq_length in F. lia.
Qed.
Print Assumptions C119_classes.

Lemma count_perm (l l' : list Z) c : Permutation l l' -> count_occ Z.eq_dec l c = count_occ Z.eq_dec l' c.
Proof. intros P. apply (Permutation_count_occ Z.eq_dec); auto. Qed.
Lemma count_rep x c n : count_occ Z.eq_dec (repeat x n) c = if x =? c then n else 0%nat.
Proof. induction n as [|n IH]; cbn [repeat count_occ]; [destruct (x =? c); auto|]. rewrite IH. destruct (Z.eq_dec x c) as [E|E]; destruct (Z.eqb_spec x c); congruence. Qed.
Lemma nth_repeat_lt (x d : Z) n : forall p, (p < n)%nat -> nth p (repeat x n) d = x.
Proof. induction n as [|n IH]; intros [|p] H; cbn; try lia; auto. apply IH. lia. Qed.
(** The first two classes get a third of the edges each, rounded down, and the third gets the others, whatever the order. *)
Theorem C119_sizes : forall n ints cl, Permutation ints (seq 0 n) -> edge_classes ints n = Ok cl ->
  keys cl = edge_names n /\ (forall k c, In (k, c) cl -> 0 <= c < 3) /\
  count_occ Z.eq_dec (map snd cl) 0 = (n / 3)%nat /\ count_occ Z.eq_dec (map snd cl) 1 = (n / 3)%nat /\ count_occ Z.eq_dec (map snd cl) 2 = (n - 2 * (n / 3))%nat.
Proof.
  intros n ints cl P E. destruct (C119_classes n ints P) as (pk & E' & Lp & Hp). rewrite E in E'. injection E' as ->.
  assert (Ln : List.length (edge_names n) = n) by (unfold edge_names; rewrite map_length, seq_length; auto).
  assert (Sn : forall (a : list string) (b : list Z), List.length a = List.length b -> map snd (combine a b) = b) by (induction a as [|x a IH]; intros [|y b] H; cbn in *; try discriminate; auto; f_equal; auto).
  assert (Fn : forall (a : list string) (b : list Z), List.length a = List.length b -> map fst (combine a b) = a) by (induction a as [|x a IH]; intros [|y b] H; cbn in *; try discriminate; auto; f_equal; auto).
  unfold keys. rewrite Sn, Fn by lia. split; auto.
  assert (Li : List.length ints = n) by (apply Permutation_length in P; rewrite seq_length in P; auto).
  set (f := fun i => nth i pk 7).
  assert (Pf : Permutation (map f ints) pk).
  { rewrite P. replace (map f (seq 0 n)) with pk; auto. apply nth_ext with (d := 7) (d' := 7); [rewrite map_length, seq_length; auto|].
    intros i Hi. rewrite (nth_indep (map f (seq 0 n)) 7 (f n)) by (rewrite map_length, seq_length; lia). rewrite (map_nth f). rewrite seq_nth by lia. reflexivity. }
  assert (Fp : forall p i, nth_error ints p = Some i -> f i = let g := (n / 3)%nat in if (p <? g)%nat then 0 else if (p <? 2 * g)%nat then 1 else 2).
  { intros p i Hi. assert (Hn : (i < n)%nat). { apply nth_error_In in Hi. apply (Permutation_in _ P) in Hi. apply in_seq in Hi. lia. }
    unfold f. apply nth_error_nth. apply Hp; auto. exists p. split; auto. rewrite Li. reflexivity. }
  assert (Mf : map f ints = repeat 0 (n / 3) ++ repeat 1 (n / 3) ++ repeat 2 (n - 2 * (n / 3))).
  { assert (T := third ints). rewrite Li in T. set (g := (n / 3)%nat) in *.
    apply nth_ext with (d := 7) (d' := 7); [rewrite !app_length, !repeat_length, map_length; lia|]. intros p Hl. rewrite map_length in Hl.
    destruct (nth_error ints p) as [i|] eqn:Ei; [|apply nth_error_None in Ei; lia].
    rewrite (nth_error_nth (map f ints) p 7 (x := f i)) by (rewrite nth_error_map, Ei; auto). rewrite (Fp p i Ei). cbv zeta.
    destruct (Nat.ltb_spec p g). { rewrite app_nth1 by (rewrite repeat_length; auto). rewrite nth_repeat_lt; auto. }
    rewrite app_nth2; rewrite repeat_length; [|lia]. destruct (Nat.ltb_spec p (2 * g)). { rewrite app_nth1 by (rewrite repeat_length; lia). rewrite nth_repeat_lt; auto; lia. }
    rewrite app_nth2; rewrite repeat_length; [|lia]. rewrite nth_repeat_lt; auto. lia. }
  split.
  { intros k c Hc. apply in_combine_r in Hc. apply (Permutation_in _ (Permutation_sym Pf)) in Hc. rewrite Mf, !in_app_iff in Hc. destruct Hc as [H|[H|H]]; apply repeat_spec in H; lia. }
  repeat split; rewrite <- (count_perm _ _ _ Pf), Mf, !count_occ_app, !count_rep; cbn [Z.eqb Pos.eqb]; lia.
Qed.
Print Assumptions C119_sizes.

(** As written, [main] saves nothing for any input. *)
Theorem C119_main_never : forall nx_wpath nx_wlen A f sc ints (a : A), ema_brc_main nx_wpath nx_wlen f sc ints <> Ok a.
Proof.
  intros nxw nxl A f sc ints a. unfold ema_brc_main. destruct (read_model f); [cbn [bind]|discriminate]. destruct (edge_classes _ _); [cbn [bind]|discriminate].
  destruct (mapM _ _); [cbn [bind]|discriminate]. destruct (mapM _ _); [cbn [bind]|discriminate]. destruct (dget _ _); [cbn [bind]|discriminate].
  destruct (get_time_and_path_given_comps _ _ _ _ _ _ _); discriminate.
Qed.
Print Assumptions C119_main_never.

(** On a file with complete data whose edges are named e1, e2, ..., and with the pair od2, the preparation succeeds,
    and the search fails because its module is not imported.  On the same file the search of batch.py, with the
    classes of C119_classes, succeeds (C83). *)
Theorem C119_main_refuted : forall nx_path nx_wpath nx_wlen np_sqrt arcs coords speeds ODs f sc o d pk max_sf ints A,
  ema_setting nx_wpath nx_wlen np_sqrt arcs coords speeds ODs f sc "od2" o d pk max_sf ->
  keys arcs = edge_names (List.length arcs) -> edge_classes ints (List.length arcs) = Ok (combine (edge_names (List.length arcs)) pk) ->
  ema_brc_main (A := A) nx_wpath nx_wlen f sc ints = Err NameError /\
  exists out, ema_main nx_path nx_wpath nx_wlen f sc "od2" pk max_sf = Ok out.
Proof.
  intros nxp nxw nxl sq arcs coords speeds ODs f sc o d pk msf ints A Hs Hk Hc.
  destruct (ema_use nxp nxw nxl sq arcs coords speeds ODs f sc "od2" o d pk msf Hs) as (out & _ & _ & _ & _ & _ & _ & _ & E & _). split; [|eauto].
  unfold ema_main in E. unfold ema_brc_main. destruct (read_model f) as [net|] eqn:En; [|discriminate]. cbn [bind] in E |- *. cbv zeta in *.
  assert (Ek : keys (snd (fst net)) = keys arcs).
  { destruct Hs as (_ & Hq & Hd & Ec & _). destruct (create_facts sq arcs coords speeds ODs Hq Hd) as (L & s1 & E' & T & KL & _). rewrite Ec in E'. injection E' as Ef Es.
    rewrite (read_ok f false false) in En by (rewrite Ef; left; auto). injection En as <-. cbn [fst snd]. rewrite <- KL, Ef. cbn [node_conn_df].
    unfold keys. rewrite ?map_map. reflexivity. }
  rewrite Ek in *. replace (List.length (keys arcs)) with (List.length arcs) by (unfold keys; rewrite map_length; auto). rewrite Hc. cbn [bind]. rewrite <- Hk.
  destruct (dget (snd net) "od2") as [od|]; [|discriminate]. cbn [bind] in E.
  destruct (mapM (fun kc => p <- probs_set (snd kc) ;; Ok (fst kc, p)) (combine (keys arcs) pk)) as [pr|]; [|discriminate]. cbn [bind] in E |- *.
  match goal with |- bind ?x _ = _ => destruct x as [vc|] end; [|discriminate]. cbn [bind] in E |- *.
  match goal with |- bind ?x _ = _ => destruct x as [c|] end; [|discriminate]. reflexivity.
Qed.
Print Assumptions C119_main_refuted.

(** If the first edge of the file is not named e1, ..., en, there are no probabilities for it. *)
Theorem C119_names : forall nx_wpath nx_wlen A f sc ints k L, node_conn_df f = L -> hd_error (keys L) = Some k -> kind_of (graph_type f) false false ->
  Permutation ints (seq 0 (List.length L)) -> ~ In k (edge_names (List.length L)) ->
  ema_brc_main (A := A) nx_wpath nx_wlen f sc ints = Err KeyError.
Proof.
  intros nxw nxl A f sc ints k L EL Hk Hg P N. unfold ema_brc_main. rewrite (read_ok f false false Hg). cbn [bind fst snd]. cbv zeta. rewrite EL.
  match goal with |- context [edge_classes ints ?n] => replace n with (List.length L) by (unfold keys; rewrite ?map_length; auto) end.
  destruct (C119_classes _ ints P) as (pk & E & _). destruct (C119_sizes _ ints _ P E) as (K & R & _). rewrite E. cbn [bind]. set (cl := combine _ pk) in *.
  assert (X : forall l : dict Z, (forall k c, In (k, c) l -> 0 <= c < 3) -> exists pr, mapM (fun kc => p <- probs_set (snd kc) ;; Ok (fst kc, p)) l = Ok pr /\ keys pr = keys l).
  { induction l as [|[k' c] l IH]; intros H; [exists []; auto|]. destruct IH as (pr & E1 & E2); [intros ? ? ?; eapply H; right; eauto|].
    assert (Hc := H k' c (or_introl eq_refl)). cbn [mapM fst snd]. assert (Cs : c = 0 \/ c = 1 \/ c = 2) by lia.
    destruct Cs as [->|[->| ->]]; cbn [probs_set bind]; rewrite E1; cbn [bind]; eexists; (split; [reflexivity|]); unfold keys in *; cbn [map fst]; rewrite E2; auto. }
  destruct (X cl R) as (pr & Ep & Kp). rewrite Ep. cbn [bind].
  match goal with |- context [mapM ?F (keys ?x)] => assert (Kx : exists t, keys x = k :: t) end.
  { destruct L as [|[k0 e] L]; [discriminate|]. injection Hk as ->. cbn. eauto. }
  destruct Kx as (t & ->). cbn [mapM]. destruct (dget (snd sc) "s1") as [s1|e] eqn:E1; cbn [bind].
  - destruct (dget s1 k) as [vs|e] eqn:E2; cbn [bind].
    + rewrite (proj2 (dget_none pr k)); [reflexivity|]. destruct (dfind pr k) as [q|] eqn:Eq; auto. exfalso. apply N. rewrite <- K, <- Kp. apply dfind_keys. eauto.
    + unfold dget in E2. destruct (dfind s1 k); [discriminate|]. injection E2 as <-. reflexivity.
  - unfold dget in E1. destruct (dfind (snd sc) "s1"); [discriminate|]. injection E1 as <-. reflexivity.
Qed.
Print Assumptions C119_names.

(** seven edges; and the network of C82 with the pair od2 *)
Definition y_ods : dict (string * string) := [("od2", ("a", "b"))].
Definition y_f : netfile := mkNetfile (component_list x_f) (node_conn_df x_f) y_ods (graph_type x_f).
Example C119_ex :
  Permutation [5; 2; 0; 6; 3; 1; 4]%nat (seq 0 7) /\
  edge_classes [5; 2; 0; 6; 3; 1; 4]%nat 7 = Ok [("e1", 1); ("e2", 2); ("e3", 0); ("e4", 2); ("e5", 2); ("e6", 0); ("e7", 1)] /\
  ema_setting bf_wpath bf_wlen (ref_root 10) x_arcs x_coords x_speeds y_ods y_f x_sc "od2" "a" "b" [1; 2; 0] 100 /\
  keys x_arcs = edge_names 3 /\ edge_classes [2; 0; 1]%nat 3 = Ok (combine (edge_names 3) [1; 2; 0]) /\
  ema_brc_main (A := ema_out) bf_wpath bf_wlen y_f x_sc [2; 0; 1]%nat = Err NameError /\
  ~ In "r1" (edge_names 3) /\ ema_brc_main (A := ema_out) bf_wpath bf_wlen (mkNetfile ["a"; "b"] [("r1", mkEntry "a" "b" 1%Qc)] y_ods None) x_sc [0]%nat = Err KeyError.
Proof.
  split. { apply NoDup_Permutation; [repeat constructor; cbn; lia|apply seq_NoDup|]. intros i. rewrite in_seq. cbn [In]. lia. }
  split; [reflexivity|]. split.
  { split; [apply bf_wpath_ok|]. split; [apply x_root|]. split; [apply x_data|]. split. { destruct (create_facts (ref_root 10) x_arcs x_coords x_speeds x_ods x_root x_data) as (L & s1 & E & _).
      unfold y_f, x_f, x_sc. rewrite E. cbn [component_list node_conn_df graph_type]. unfold create_model, create_model_trans in *. destruct (get_node_conn_df _ _ _ _); [cbn [bind node_conn_df] in *|discriminate].
      destruct (mapM _ _); [|discriminate]. cbn [bind] in *. injection E as <- <-. reflexivity. }
    split; [cbn; intros H; repeat (destruct H as [H|H]; [discriminate|]); destruct H|].
    split; [reflexivity|]. split; [discriminate|]. split; [apply x_reach|]. split; [reflexivity|]. split; [|lia]. intros c H. cbn in H. lia. }
  split; [reflexivity|]. split; [reflexivity|]. split; [vm_compute; reflexivity|]. split; [|vm_compute; reflexivity].
  vm_compute. intros H. repeat (destruct H as [H|H]; [discriminate|]). destruct H.
Qed.
