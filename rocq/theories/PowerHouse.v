(** The houses, and the network as a whole. *)
From Coq Require Import ZArith List String Bool Arith Lia Permutation QArith Qcanon.
From Verif Require Import Py PyFacts Num Vari VariFacts Cpm CpmFacts SpecCpm CpmSum CpmMarg CpmElim CpmProb SysVal SpecSys SysValFacts CpmCond PropSys HybEst Bnb Power SpecPower BnetFacts PowerNodes PowerFacts.
Import ListNotations.
Open Scope string_scope.
Open Scope Z_scope.
Open Scope list_scope.

Definition Fe (f : list Z -> Z) (ns : list string) : joint -> Z := fun a => f (map a ns).
Lemma at_names vars (a : joint) : at_vars vars a = map a (names vars).
Proof. unfold at_vars, names. rewrite map_map. auto. Qed.
Lemma ext_node_ok f N name vars M w : ext_node f name vars M w -> vars <> [] -> incl vars (nvars N) -> node_ok N (mkNode w M (Some (Fe f (names vars)))).
Proof.
  intros (E1 & E2 & E3 & E4 & E5 & E6 & E7 & E8 & E9 & E10) Hne I. exists vars. cbn [nd_M nd_v nd_F]. split; auto. split; auto. split; auto. split; auto. split; auto. split; auto. split; auto.
  split; [intros q Hq; rewrite (E8 q Hq); discriminate|].
  assert (SI : forall a, states_in (w :: nvars N) a -> states_in (w :: vars) a) by (intros a Sa v [<-|Hv]; apply Sa; [left|right]; auto).
  assert (EF : forall a, Fe f (names vars) a = f (at_vars vars a)) by (intros a; unfold Fe; rewrite at_names; auto).
  split; [|split; [|split]].
  - intros a b H. rewrite !EF. f_equal. unfold at_vars. apply map_ext_in. auto.
  - intros a Sa. rewrite EF. auto.
  - intros a Sa. rewrite EF, E10 by auto. unfold nd_name. cbn [nd_v]. destruct (Z.eqb_spec (a (v_name w)) (f (at_vars vars a))); congruence.
  - intros a Sa _. rewrite EF, E10 by auto. unfold nd_name. cbn [nd_v]. intros ->. rewrite Z.eqb_refl. auto.
Qed.

Lemma vc_counts i s : (i <= 4)%nat -> counts (vc i s).
Proof. intros H. exists (i + 2)%nat, None. split; [lia|]. split; auto. apply vc_usable; auto. Qed.

Lemma get_all N (ns : list string) : topo N -> (forall n, In n ns -> exists v F, v_name v = n /\ counts v /\ has_node N v F) ->
  exists vars, mapM (dget (snd (st_of N))) ns = Ok vars /\ names vars = ns /\ incl vars (nvars N) /\ forall v, In v vars -> counts v.
Proof.
  intros T. induction ns as [|n ns IH]; intros H; cbn [mapM].
  - exists []. split; auto. split; auto. split; [intros x []|intros x []].
  - destruct (H n (or_introl eq_refl)) as (v & F & <- & C & Hv). rewrite (has_get N v F T Hv). cbn [bind].
    destruct IH as (vars & E & En & I & HC); [intros m Hm; apply H; right; auto|]. rewrite E. cbn [bind]. exists (v :: vars). split; auto.
    split; [cbn; f_equal; auto|]. split; [intros x [<-|Hx]; auto; eapply has_in; eauto|intros x [<-|Hx]; auto].
Qed.
Lemma mapM_dget (d : dict variable) (f : string -> string) l : mapM (fun x => dget d (f x)) l = mapM (dget d) (map f l).
Proof. induction l as [|x l IH]; cbn [mapM map]; auto. rewrite IH. auto. Qed.
Lemma append_c_inj x y : ("c" ++ x)%string = ("c" ++ y)%string -> x = y.
Proof. intros H. cbn in H. congruence. Qed.

(** a house or a link set of it *)
Definition set_node (ns : string * list string) (d : node) : Prop :=
  exists w, v_name w = fst ns /\ counts w /\ is_node w (Some (Fe zmax (map (append "c") (snd ns)))) d.
Definition has_closures (N : list node) (set : list string) : Prop := forall x, In x set -> exists i F, (i <= 4)%nat /\ has_node N (vc i x) F.
Lemma node_in N d : topo N -> In d N -> In (nd_v d) (nvars N).
Proof. intros _ H. apply in_map; auto. Qed.
Lemma set_ok N name set : topo N -> set <> [] -> NoDup set -> has_closures N set -> ~ In name (map nd_name N) ->
  exists d, set_step (st_of N) (name, set) = Ok (st_of (N ++ [d])) /\ set_node (name, set) d /\ node_ok N d.
Proof.
  intros T Hne ND HC Fr. destruct (get_all N (map (append "c") set) T) as (vars & E & En & I & C).
  { intros n Hn. apply in_map_iff in Hn as (x & <- & Hx). destruct (HC x Hx) as (i & F & Hi & H). exists (vc i x), F. split; auto. split; auto. apply vc_counts; auto. }
  assert (Vne : vars <> []) by (intros ->; destruct set; [congruence|discriminate En]).
  destruct (max_node name vars) as (M & w & E' & X); auto.
  - rewrite En. constructor.
    + intros Y. apply Fr. rewrite <- En in Y. apply in_map_iff in Y as (v & <- & Hv). rewrite <- names_nvars. apply (in_map v_name), I; auto.
    + apply FinFun.Injective_map_NoDup; auto. intros x y. apply append_c_inj.
  - assert (Nw : v_name w = name) by apply X. exists (mkNode w M (Some (Fe zmax (names vars)))). split; [|split].
    + unfold set_step. cbn [fst snd]. rewrite (mapM_dget _ (append "c")), E. cbn [bind]. rewrite E'. cbn [bind]. f_equal. rewrite <- Nw. apply put_st. rewrite Nw. auto.
    + exists w. split; auto. split; [apply X|]. rewrite En. split; auto.
    + apply (ext_node_ok zmax N name); auto.
Qed.

Lemma sets_ok l : forall N, topo N -> NoDup (map fst l) -> (forall n s, In (n, s) l -> s <> [] /\ NoDup s /\ has_closures N s /\ ~ In n (map nd_name N)) ->
  exists N', foldM set_step l (st_of N) = Ok (st_of (N ++ N')) /\ topo (N ++ N') /\ Forall2 set_node l N'.
Proof.
  induction l as [|[n s] l IH]; intros N T ND H; cbn [foldM].
  - exists []. rewrite app_nil_r. split; [auto|split; [auto|constructor]].
  - destruct (H n s (or_introl eq_refl)) as (H1 & H2 & H3 & H4). destruct (set_ok N n s T H1 H2 H3 H4) as (d & E & S & OK). rewrite E. cbn [bind].
    inversion ND as [|? ? N1 N2]; subst. assert (Nd : nd_name d = n) by (destruct S as (w & Nw & _ & Ew & _); unfold nd_name; rewrite Ew; auto).
    destruct (IH (N ++ [d])) as (N' & E' & T' & F'); auto.
    + constructor; auto. rewrite Nd. auto.
    + intros m t Ht. destruct (H m t (or_intror Ht)) as (G1 & G2 & G3 & G4). split; auto. split; auto. split.
      * intros x Hx. destruct (G3 x Hx) as (i & F & Hi & Y). exists i, F. split; auto. apply has_app; auto.
      * rewrite map_app, in_app_iff. intros [Y|[Y|[]]]; auto. apply N1. rewrite Nd in Y. rewrite Y. apply (in_map fst _ (m, t)); auto.
    + exists (d :: N'). rewrite <- app_assoc in E', T'. split; [exact E'|split; [exact T'|constructor; auto]].
Qed.

Definition sub_names (h : string) (sets : list (list string)) : list string := map (fun i => (h ++ num_str i)%string) (seq 0 (List.length sets)).
Definition house_nodes (hs : string * list (list string)) (N' : list node) : Prop :=
  (exists s d, snd hs = [s] /\ N' = [d] /\ set_node (fst hs, s) d) \/
  (exists D d w, house_names hs = sub_names (fst hs) (snd hs) ++ [fst hs] /\ N' = D ++ [d] /\ Forall2 set_node (combine (sub_names (fst hs) (snd hs)) (snd hs)) D /\
     v_name w = fst hs /\ counts w /\ is_node w (Some (Fe zmin (sub_names (fst hs) (snd hs)))) d).
Lemma set_nodes_names l N' : Forall2 set_node l N' -> map nd_name N' = map fst l.
Proof. induction 1 as [|[n s] d l N' S F IH]; cbn; auto. rewrite IH. f_equal. destruct S as (w & Nw & _ & Ew & _). unfold nd_name. rewrite Ew. auto. Qed.
Lemma combine_fst {A B} (l : list A) (l' : list B) : List.length l = List.length l' -> map fst (combine l l') = l.
Proof. revert l'. induction l as [|x l IH]; intros [|y l'] H; cbn; auto; try discriminate H. f_equal. apply IH. cbn in H. lia. Qed.
Lemma sub_length h sets : List.length (sub_names h sets) = List.length sets.
Proof. unfold sub_names. rewrite map_length, seq_length. auto. Qed.
Lemma house_nodes_names hs N' : house_nodes hs N' -> map nd_name N' = house_names hs.
Proof.
  intros [(s & d & E & -> & S)|(D & d & w & E & -> & F & Nw & _ & I)].
  - unfold house_names. rewrite E. cbn. f_equal. destruct S as (w & Nw & _ & Ew & _). unfold nd_name. rewrite Ew. auto.
  - rewrite E, map_app, (set_nodes_names _ _ F), combine_fst by apply sub_length. cbn. f_equal. f_equal. unfold nd_name. destruct I as [-> _]. auto.
Qed.
Lemma has_closures_app N N' s : has_closures N s -> has_closures (N ++ N') s.
Proof. intros H x Hx. destruct (H x Hx) as (i & F & Hi & Y). exists i, F. split; auto. apply has_app; auto. Qed.

Lemma house_ok N h sets : topo N -> sets <> [] -> (forall s, In s sets -> s <> [] /\ NoDup s /\ has_closures N s) ->
  NoDup (map nd_name N ++ house_names (h, sets)) ->
  exists N', house_step (st_of N) (h, sets) = Ok (st_of (N ++ N')) /\ topo (N ++ N') /\ house_nodes (h, sets) N'.
Proof.
  intros T Hne HS ND. assert (FR : forall n, In n (house_names (h, sets)) -> ~ In n (map nd_name N)).
  { intros n Hn Hn'. clear -ND Hn Hn'. induction (map nd_name N) as [|m l IH]; [destruct Hn'|]. cbn in ND. inversion ND as [|? ? N1 N2]; subst. destruct Hn' as [->|Hn']; auto. apply N1, in_app_iff; auto. }
  destruct sets as [|s0 [|s1 r]]; [congruence| |].
  - destruct (HS s0 (or_introl eq_refl)) as (H1 & H2 & H3). destruct (set_ok N h s0 T H1 H2 H3) as (d & E & S & OK); [apply FR; left; auto|].
    exists [d]. split; [exact E|]. split.
    + constructor; auto. destruct S as (w & Nw & _ & Ew & _). unfold nd_name. rewrite Ew, Nw. apply FR. left. auto.
    + left. exists s0, d. auto.
  - set (sets := s0 :: s1 :: r) in *. assert (HN : house_names (h, sets) = sub_names h sets ++ [h]) by reflexivity. rewrite HN in ND, FR.
    assert (LN := sub_length h sets). assert (ND2 : NoDup (sub_names h sets ++ [h])).
    { clear -ND. induction (map nd_name N) as [|m l IH]; auto. apply IH. cbn in ND. inversion ND; auto. }
    assert (ND3 : NoDup (sub_names h sets) /\ ~ In h (sub_names h sets)).
    { split; [apply NoDup_remove_1 in ND2; rewrite app_nil_r in ND2; auto|apply NoDup_remove_2 in ND2; rewrite app_nil_r in ND2; auto]. }
    destruct (sets_ok (combine (sub_names h sets) sets) N T) as (D & E & T' & F).
    + rewrite combine_fst by auto. apply ND3.
    + intros n s Hn. assert (Hs := in_combine_r _ _ _ _ Hn). assert (Hm := in_combine_l _ _ _ _ Hn). destruct (HS s Hs) as (H1 & H2 & H3). split; auto. split; auto. split; auto. apply FR. apply in_app_iff; auto.
    + assert (ND' : map nd_name D = sub_names h sets) by (rewrite (set_nodes_names _ _ F); apply combine_fst; auto).
      destruct (get_all (N ++ D) (sub_names h sets) T') as (vars & E2 & En & I & C).
      { intros n Hn. rewrite <- ND' in Hn. apply in_map_iff in Hn as (d & <- & Hd).
        destruct (Forall2_in_r _ _ _ _ F Hd) as (x & Hx & w & Nw & Cw & Ew & Fw). exists w, (nd_F d). unfold nd_name. rewrite Ew. split; auto. split; auto. exists d. split; [apply in_app_iff; auto|split; auto]. }
      assert (Vne : vars <> []) by (intros ->; discriminate En).
      assert (Frh : ~ In h (map nd_name (N ++ D))).
      { rewrite map_app, in_app_iff, ND'. intros [X|X]; [|apply ND3; auto]. apply (FR h); auto. apply in_app_iff. right. left. auto. }
      destruct (min_node h vars) as (M & w & E' & X); auto; [rewrite En; constructor; apply ND3|].
      assert (Nw : v_name w = h) by apply X. exists (D ++ [mkNode w M (Some (Fe zmin (names vars)))]). rewrite app_assoc. split; [|split].
      * unfold house_step. cbn [fst snd]. change (match sets with [s] => set_step (st_of N) (h, s) | _ => _ end) with
          (st <- foldM set_step (combine (sub_names h sets) sets) (st_of N) ;; vars <- mapM (dget (snd st)) (sub_names h sets) ;; '(M, v) <- sys_min_val h vars ;; Ok (put st h M v)).
        rewrite E. cbn [bind]. rewrite E2. cbn [bind]. rewrite E'. cbn [bind]. f_equal. rewrite <- Nw. apply put_st. rewrite Nw. auto.
      * constructor; auto; [|unfold nd_name; cbn [nd_v]; rewrite Nw; auto]. apply (ext_node_ok zmin (N ++ D) h); auto.
      * right. exists D, (mkNode w M (Some (Fe zmin (names vars)))), w. cbn [fst snd]. split; auto. split; auto. split; auto. split; auto. split; [apply X|]. rewrite En. split; auto.
Qed.

Lemma houses_ok l : forall N, topo N -> (forall h sets, In (h, sets) l -> sets <> [] /\ forall s, In s sets -> s <> [] /\ NoDup s /\ has_closures N s) ->
  NoDup (map nd_name N ++ flat_map house_names l) ->
  exists NS, foldM house_step l (st_of N) = Ok (st_of (N ++ List.concat NS)) /\ topo (N ++ List.concat NS) /\ Forall2 house_nodes l NS.
Proof.
  induction l as [|[h sets] l IH]; intros N T H ND; cbn [foldM].
  - exists []. cbn [List.concat]. rewrite app_nil_r. split; [auto|split; [auto|constructor]].
  - destruct (H h sets (or_introl eq_refl)) as (H1 & H2). cbn [flat_map] in ND. rewrite app_assoc in ND.
    destruct (house_ok N h sets T H1 H2) as (D & E & T' & HD).
    { clear -ND. induction (flat_map house_names l) as [|n r IH]; [rewrite app_nil_r in ND; auto|]. apply IH. apply NoDup_remove_1 in ND. auto. }
    rewrite E. cbn [bind]. destruct (IH (N ++ D) T') as (NS & E' & T2 & F).
    + intros g ss Hg. destruct (H g ss (or_intror Hg)) as (G1 & G2). split; auto. intros s Hs. destruct (G2 s Hs) as (A1 & A2 & A3). split; auto. split; auto. apply has_closures_app; auto.
    + rewrite map_app, (house_nodes_names _ _ HD). auto.
    + exists (D :: NS). cbn [List.concat]. rewrite <- app_assoc in E', T2. split; [exact E'|split; [exact T2|constructor; auto]].
Qed.
