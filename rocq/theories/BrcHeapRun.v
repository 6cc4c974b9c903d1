(** Proofs for C104: the next component vector, the loop body and [run]. *)
From Coq Require Import ZArith List String Bool Arith Lia QArith Qcanon.
From Verif Require Import Py Num Vari Brc BrcHeap SpecBrcHeap PyFacts VariFacts BrcFacts CtorFacts BrcHeapFacts.
Import ListNotations.
Open Scope Z_scope.
Open Scope list_scope.

(** * The next component vector *)
Definition vo (h : heap) (o : bobj) : branch := mkBr (hdict h (o_down o)) (hdict h (o_up o)) (o_ds o) (o_us o) (o_p o).
Definition within (lo : nat) (h : heap) (o : bobj) : Prop :=
  (lo <= o_down o < List.length (h_ds h))%nat /\ (lo <= o_up o < List.length (h_ds h))%nat.
Lemma ends_spec h lo worst best probs : (lo <= worst < List.length (h_ds h))%nat -> (lo <= best < List.length (h_ds h))%nat ->
  forall refs last acc, (forall r, In r refs -> within lo h (hobj h r)) -> (forall o, last = Some o -> within lo h o) -> (forall o, In o acc -> within lo h o) ->
  match unknown_ends (hdict h worst) (hdict h best) probs (map (view h) refs) (option_map (vo h) last) (map (vo h) acc) with
  | Err e => ends_h h worst best probs refs last acc = Err e
  | Ok l => exists l', ends_h h worst best probs refs last acc = Ok l' /\ map (vo h) l' = l /\ forall o, In o l' -> within lo h o
  end.
Proof.
  intros Hw Hb. induction refs as [|r refs IH]; intros last acc Hr Hl Ha; cbn [map unknown_ends ends_h]; [eauto|].
  cbn [view b_up b_down b_up_state b_down_state]. unfold mk_branch.
  assert (Wr := Hr r (or_introl eq_refl)). destruct Wr as [Wd Wu].
  set (up := hdict h (o_up (hobj h r))). set (dn := hdict h (o_down (hobj h r))).
  assert (G : forall last1 acc1, (forall o, last1 = Some o -> within lo h o) -> (forall o, In o acc1 -> within lo h o) ->
    match (acc2 <- (if st_eqb (o_ds (hobj h r)) U_ then
           p_new <- approx_prob_by_comps (hdict h worst) dn probs ;;
           b_new <- (if (List.length (hdict h worst) =? List.length dn)%nat then Ok (mkBr (hdict h worst) dn F_ U_ p_new) else Err AssertionError) ;;
           match option_map (vo h) last1 with None => Err UnboundLocalError | Some b => Ok (map (vo h) acc1 ++ [b]) end
         else Ok (map (vo h) acc1)) ;;
      unknown_ends (hdict h worst) (hdict h best) probs (map (view h) refs) (option_map (vo h) last1) acc2) with
    | Err e => (acc2 <- (if st_eqb (o_ds (hobj h r)) U_ then
           p_new <- approx_prob_by_comps (hdict h worst) dn probs ;;
           _ <- (if (List.length (hdict h worst) =? List.length dn)%nat then Ok (mkBr (hdict h worst) dn F_ U_ p_new) else Err AssertionError) ;;
           match last1 with None => Err UnboundLocalError | Some b => Ok (acc1 ++ [b]) end
         else Ok acc1) ;; ends_h h worst best probs refs last1 acc2) = Err e
    | Ok l => exists l', (acc2 <- (if st_eqb (o_ds (hobj h r)) U_ then
           p_new <- approx_prob_by_comps (hdict h worst) dn probs ;;
           _ <- (if (List.length (hdict h worst) =? List.length dn)%nat then Ok (mkBr (hdict h worst) dn F_ U_ p_new) else Err AssertionError) ;;
           match last1 with None => Err UnboundLocalError | Some b => Ok (acc1 ++ [b]) end
         else Ok acc1) ;; ends_h h worst best probs refs last1 acc2) = Ok l' /\ map (vo h) l' = l /\ forall o, In o l' -> within lo h o
    end).
  { intros last1 acc1 W1 W2. assert (Hr' : forall q, In q refs -> within lo h (hobj h q)) by (intros; apply Hr; cbn; auto).
    destruct (st_eqb (o_ds (hobj h r)) U_); cbn [bind]; [|apply IH; auto].
    destruct (approx_prob_by_comps (hdict h worst) dn probs) as [p|e]; cbn [bind]; [|auto].
    destruct (_ =? _)%nat; cbn [bind]; [|auto]. destruct last1 as [b|]; cbn [option_map bind]; [|auto].
    change [vo h b] with (map (vo h) [b]). rewrite <- map_app. apply (IH (Some b)); auto.
    intros o Ho. apply in_app_iff in Ho as [Ho|[<-|[]]]; auto. }
  destruct (st_eqb (o_us (hobj h r)) U_); cbn [bind]; [|apply G; auto].
  destruct (approx_prob_by_comps up (hdict h best) probs) as [p|e]; cbn [bind]; [|auto].
  destruct (List.length up =? List.length (hdict h best))%nat; cbn [bind]; [|auto].
  set (o1 := mkO (o_up (hobj h r)) best U_ S_ p). change (mkBr up (hdict h best) U_ S_ p) with (vo h o1).
  change [vo h o1] with (map (vo h) [o1]). rewrite <- (map_app (vo h) acc [o1]). apply (G (Some o1)).
  - intros o X. injection X as <-. split; cbn; auto.
  - intros o Ho. apply in_app_iff in Ho as [Ho|[<-|[]]]; auto. split; cbn; auto.
Qed.
Lemma find_map {A B} (f : A -> B) (p : B -> bool) l : find p (map f l) = option_map f (find (fun x => p (f x)) l).
Proof. induction l as [|a l IH]; cbn; [auto|]. destruct (p (f a)); auto. Qed.

Lemma comp_spec h lo refs sf varis probs : sane h -> (lo <= List.length (h_ds h))%nat ->
  (forall r, In r refs -> live h r /\ (lo <= o_down (hobj h r))%nat /\ (lo <= o_up (hobj h r))%nat) ->
  let o := comp_st_h h refs sf varis probs in
  ext h (fst o) /\ h_bs (fst o) = h_bs h /\
  match get_comp_st (map (view h) refs) sf varis probs with
  | Err e => snd o = Err e
  | Ok None => snd o = Ok None
  | Ok (Some d) => exists x, snd o = Ok (Some x) /\ hdict (fst o) x = d /\ (lo <= x < List.length (h_ds (fst o)))%nat
  end.
Proof.
  intros S Hlo Hr. cbv zeta. unfold comp_st_h, get_comp_st. destruct sf.
  - cbn [fst snd]. split; [apply ext_refl|]. split; [auto|]. rewrite (sort_desc_map (view h)).
    change (fun y x : nat => br_gtb (view h y) (view h x)) with (gt_h h). set (sorted := sort_desc (gt_h h) refs).
    assert (In_s : forall r, In r sorted -> In r refs) by (intros r; apply Permutation.Permutation_in, sort_desc_perm).
    rewrite !find_map. cbn [view b_up_state b_down_state].
    destruct (find (fun x => st_eqb (o_us (hobj h x)) U_) sorted) as [r|] eqn:E1; cbn [option_map].
    + apply find_some in E1 as [E1 _]. destruct (Hr r (In_s r E1)) as (L & A & B). destruct (sane_obj h r S L). exists (o_up (hobj h r)). split; [auto|]. split; [auto|]. lia.
    + destruct (find (fun x => st_eqb (o_ds (hobj h x)) U_) sorted) as [r|] eqn:E2; cbn [option_map]; [|auto].
      apply find_some in E2 as [E2 _]. destruct (Hr r (In_s r E2)) as (L & A & B). destruct (sane_obj h r S L). exists (o_down (hobj h r)). split; [auto|]. split; [auto|]. lia.
  - cbn [new_dict h_ds h_bs h_rs fst snd]. set (h2 := mkHeap _ (h_bs h) (h_rs h)).
    assert (X : ext h h2) by (eexists [_; _], []; cbn; rewrite <- app_assoc, app_nil_r; cbn; auto).
    split; [exact X|]. split; [auto|]. assert (Ll : List.length (h_ds h2) = (List.length (h_ds h) + 2)%nat) by (cbn; rewrite !app_length; cbn; lia).
    assert (Dw : hdict h2 (List.length (h_ds h)) = worst_of varis).
    { unfold hdict, h2. cbn [h_ds]. rewrite nth_app1 by (rewrite app_length; cbn; lia). apply nth_last. }
    assert (Db : hdict h2 (List.length (h_ds h ++ [worst_of varis])) = best_of varis) by apply nth_last.
    assert (V : map (view h2) refs = map (view h) refs) by (apply map_ext_in; intros r Hin; apply ext_view; [exact S|exact X|apply Hr; auto]).
    assert (W : forall r, In r refs -> within lo h2 (hobj h2 r)).
    { intros r Hin. destruct (Hr r Hin) as (L & A & B). change (hobj h2 r) with (hobj h r). destruct (sane_obj h r S L). unfold within. lia. }
    assert (E := ends_spec h2 lo (List.length (h_ds h)) (List.length (h_ds h ++ [worst_of varis])) probs). rewrite Dw, Db in E.
    specialize (E ltac:(lia) ltac:(rewrite app_length; cbn [List.length]; lia) refs None [] W ltac:(discriminate) ltac:(intros o [])).
    cbn [option_map map] in E. rewrite V in E. destruct (unknown_ends (worst_of varis) (best_of varis) probs (map (view h) refs) None []) as [l|e]; cbn [bind].
    2:{ rewrite E. auto. }
    destruct E as (l' & -> & E2 & E3). cbn [bind]. rewrite <- E2, (sort_desc_map (vo h2)).
    change (fun y x : bobj => br_gtb (vo h2 y) (vo h2 x)) with (fun y x : bobj => qc_ltb (o_p x) (o_p y)).
    assert (P := sort_desc_perm (fun y x : bobj => qc_ltb (o_p x) (o_p y)) l').
    destruct (sort_desc (fun y x : bobj => qc_ltb (o_p x) (o_p y)) l') as [|o rest]; cbn [map]; [auto|].
    assert (Wo : within lo h2 o) by (apply E3; eapply Permutation.Permutation_in; [exact P|cbn; auto]). destruct Wo as [Wd Wu].
    cbn [vo b_up_state b_down_state b_up b_down]. destruct (st_eqb (o_us o) U_); [eauto|]. destruct (st_eqb (o_ds o) U_); [eauto|auto].
Qed.

(** * Writing to dictionaries and rule sets *)
Lemma set_dict_other h x d r : (x < List.length (h_ds h))%nat -> r <> x -> hdict (set_dict h x d) r = hdict h r.
Proof. intros L N. apply upd_other; auto. Qed.
Lemma set_dict_id h x : (x < List.length (h_ds h))%nat -> set_dict h x (hdict h x) = h.
Proof. intros L. unfold set_dict, hdict. rewrite upd_self by auto. destruct h; auto. Qed.
Lemma set_rules_same h r rs : (r < List.length (h_rs h))%nat -> hrules (set_rules h r rs) r = rs.
Proof. intros L. apply upd_same. auto. Qed.
Lemma set_rules_other h r rs q : (r < List.length (h_rs h))%nat -> q <> r -> hrules (set_rules h r rs) q = hrules h q.
Proof. intros L N. apply upd_other; auto. Qed.
Lemma sane_bs h h' : h_bs h' = h_bs h -> (List.length (h_ds h) <= List.length (h_ds h'))%nat -> sane h -> sane h'.
Proof. intros E L S o Ho. rewrite E in Ho. destruct (S o Ho). lia. Qed.

(** * What stays *)
Definition kept (rules : ruleset) (touched : nat -> Prop) (rid : nat) (h h' : heap) : Prop :=
  (List.length (h_ds h) <= List.length (h_ds h'))%nat /\ (List.length (h_bs h) <= List.length (h_bs h'))%nat /\
  List.length (h_rs h') = List.length (h_rs h) /\
  (forall r, (r < List.length (h_ds h))%nat -> hdict h' r = hdict h r) /\
  (forall q, q <> rid -> hrules h' q = hrules h q) /\
  forall r, live h r ->
    o_down (hobj h' r) = o_down (hobj h r) /\ o_up (hobj h' r) = o_up (hobj h r) /\ o_p (hobj h' r) = o_p (hobj h r) /\
    (~ touched r -> hobj h' r = hobj h r) /\
    label_after rules (hdict h (o_down (hobj h r))) (o_ds (hobj h r)) (o_ds (hobj h' r)) /\
    label_after rules (hdict h (o_up (hobj h r))) (o_us (hobj h r)) (o_us (hobj h' r)).
Lemma kept_refl rules (t : nat -> Prop) rid h : kept rules t rid h h.
Proof. do 3 (split; [auto|]). split; [auto|]. split; [auto|]. intros r L. do 3 (split; [auto|]). split; [auto|]. split; left; auto. Qed.
Lemma kept_changed rules (t : nat -> Prop) rid h h' : changed rules t h h' -> kept rules t rid h h'.
Proof.
  intros ((D & A) & B & C & O). split; [rewrite A, app_length; lia|]. split; [auto|]. split; [rewrite B; auto|].
  split; [intros r L; unfold hdict; rewrite A; apply app_nth1; auto|]. split; [intros q _; unfold hrules; rewrite B; auto|]. exact O.
Qed.
Lemma kept_weaken rules (t t' : nat -> Prop) rid h h' : (forall r, t r -> t' r) -> kept rules t rid h h' -> kept rules t' rid h h'.
Proof.
  intros W (A & B & C & D & E & O). do 5 (split; [auto|]). intros r L. destruct (O r L) as (O1 & O2 & O3 & O4 & O5 & O6).
  do 3 (split; [auto|]). split; auto.
Qed.
(** later steps do not touch the first objects *)
Lemma kept_then rules rules' (t t' : nat -> Prop) rid h h1 h2 : (forall r, live h r -> ~ t' r) ->
  kept rules t rid h h1 -> kept rules' t' rid h1 h2 -> kept rules t rid h h2.
Proof.
  intros N (A & B & C & D & E & O) (A' & B' & C' & D' & E' & O'). split; [lia|]. split; [lia|]. split; [congruence|].
  split; [intros r L; rewrite D', D; [auto|auto|lia]|]. split; [intros q Hq; rewrite E', E; auto|].
  intros r L. destruct (O r L) as (O1 & O2 & O3 & O4 & O5 & O6). destruct (O' r ltac:(unfold live in *; lia)) as (_ & _ & _ & O4' & _).
  rewrite (O4' (N r L)). auto 10.
Qed.
(** what is written after the decomposition *)
Lemma kept_tail rules (t : nat -> Prop) rid h h1 h2 : changed rules t h h1 -> ext h1 h2 -> h_bs h2 = h_bs h1 -> forall x d,
  (List.length (h_ds h) <= x < List.length (h_ds h2))%nat -> kept rules t rid h (set_dict h2 x d).
Proof.
  intros C X B x d Hx. assert (K := kept_changed rules t rid h h1 C). destruct K as (A1 & A2 & A3 & A4 & A5 & A6).
  destruct (ext_len _ _ X) as [L1 L2]. split; [cbn; rewrite upd_length by lia; lia|]. split; [cbn; lia|]. split; [cbn; destruct X as (? & ? & _ & _ & ->); auto|].
  split; [|split].
  - intros r Hr. rewrite set_dict_other by lia. rewrite (ext_dict h1 h2) by (auto; lia). auto.
  - intros q Hq. change (hrules (set_dict h2 x d) q) with (hrules h2 q). rewrite (ext_rules h1 h2) by auto. auto.
  - intros r L. assert (E : hobj (set_dict h2 x d) r = hobj h1 r) by (unfold hobj; cbn; rewrite B; auto). rewrite E. auto.
Qed.
Lemma kept_ext rules (t : nat -> Prop) rid h h1 h2 : changed rules t h h1 -> ext h1 h2 -> h_bs h2 = h_bs h1 -> kept rules t rid h h2.
Proof.
  intros C X B. assert (K := kept_changed rules t rid h h1 C). destruct K as (A1 & A2 & A3 & A4 & A5 & A6). destruct (ext_len _ _ X) as [L1 L2].
  split; [lia|]. split; [lia|]. split; [destruct X as (? & ? & _ & _ & ->); auto|]. split; [intros r Hr; rewrite (ext_dict h1 h2) by (auto; lia); auto|].
  split; [intros q Hq; rewrite (ext_rules h1 h2) by auto; auto|]. intros r L. assert (E : hobj h2 r = hobj h1 r) by (unfold hobj; rewrite B; auto). rewrite E. auto.
Qed.
Lemma kept_rules rules (t : nat -> Prop) rid h h1 rs : (rid < List.length (h_rs h))%nat -> kept rules t rid h h1 -> kept rules t rid h (set_rules h1 rid rs).
Proof.
  intros L (A1 & A2 & A3 & A4 & A5 & A6). split; [auto|]. split; [auto|]. split; [cbn; rewrite upd_length by lia; auto|]. split; [auto|]. split; [|auto].
  intros q Hq. rewrite set_rules_other by lia. auto.
Qed.

Definition given (s : hstate) : list nat := match hs_brs s with None => [] | Some b => b end.
Definition start (g : config) (s : hstate) : list nat := if g_active g then [] else given s.
Lemma body_start h varis probs F g s :
  body_h h varis probs F g s =
  match decomp_h h varis (hrules h (hs_rules s)) probs (g_max_nb g) (start g s) with
  | (h1, Err e) => (h1, Err e)
  | (h1, Ok refs) =>
      match comp_st_h h1 refs (g_surv_first g) varis probs with
      | (h2, Err e) => (h2, Err e)
      | (h2, Ok x_star) =>
          let rs := hrules h2 (hs_rules s) in
          let stop f := (h2, Ok (inl (mkHs (Some refs) (hs_rules s) (hs_sys s) (set_flag (hs_mon s) f) (hs_ctrl s)))) in
          match x_star with
          | None => stop O_complete
          | Some x =>
              if ge_bound (len refs) (g_max_nb g) then stop O_max_nb
              else if qc_ltb (c_pr_bu (hs_ctrl s)) (c_pf_low (hs_ctrl s) * g_pf_bnd_wr g)%Qc then stop O_pf_bnd
              else if ge_bound (len (r_s rs ++ r_f rs)) (g_max_rules g) then stop O_max_rules
              else
                match sys_fn_h h2 x F varis with
                | (h3, Err e) => (h3, Err e)
                | (h3, Ok (rule, sst, sres)) =>
                    match update_rule_set rs rule sst with
                    | Err e => (h3, Err e)
                    | Ok rs' =>
                        let h4 := set_rules h3 (hs_rules s) rs' in
                        let no_sf := c_no_sf (hs_ctrl s) + 1 in
                        let '(mon, ctl) := update_monitor (push_no_sf (hs_mon s) no_sf) (map (view h4) refs) rs' in
                        let mon' := if c_no_sf ctl =? g_max_sf g then set_flag mon O_max_sf else mon in
                        (h4, Ok (inr (mkHs (Some refs) (hs_rules s) (hs_sys s ++ [sres]) mon' ctl)))
                    end
                end
          end
      end
  end.
Proof. unfold body_h, start, given. destruct (g_active g); reflexivity. Qed.

Definition ready (h : heap) (s : hstate) : Prop :=
  sane h /\ NoDup (given s) /\ (forall r, In r (given s) -> live h r) /\ (hs_rules s < List.length (h_rs h))%nat.
Lemma ready_start h g s : ready h s -> NoDup (start g s) /\ forall r, In r (start g s) -> live h r.
Proof. intros (_ & N & L & _). unfold start. destruct (g_active g); [split; [constructor|intros r []]|auto]. Qed.

Lemma fresh_same h h1 h2 refs : h_bs h2 = h_bs h1 -> fresh h h1 refs -> fresh h h2 refs.
Proof.
  intros B [N F]. split; [auto|]. intros r Hr. destruct (F r Hr) as (F1 & F2 & F3 & F4). unfold live, hobj in *. rewrite B. auto.
Qed.
Lemma body_kept h varis probs F g s : ready h s ->
  let o := body_h h varis probs F g s in
  kept (hrules h (hs_rules s)) (fun r => In r (start g s)) (hs_rules s) h (fst o) /\ sane (fst o) /\
  match snd o with
  | Err _ => True
  | Ok (inl s') | Ok (inr s') => hs_rules s' = hs_rules s /\ exists refs, hs_brs s' = Some refs /\ fresh h (fst o) refs
  end.
Proof.
  intros Rd. assert (St := ready_start h g s Rd). destruct Rd as (S & _ & _ & Lr), St as [N Lv]. cbv zeta. rewrite body_start.
  assert (D := decomp_spec h varis (hrules h (hs_rules s)) probs (g_max_nb g) (start g s) S N Lv). cbv zeta in D.
  destruct (decomp_h h varis (hrules h (hs_rules s)) probs (g_max_nb g) (start g s)) as [h1 r1]. cbn [fst snd] in D. destruct D as (C1 & S1 & D).
  destruct r1 as [refs|e].
  2:{ cbn [fst snd]. split; [apply kept_changed; auto|auto]. }
  assert (Fr : fresh h h1 refs). { destruct (decomp_depth_first _ _ _ _ _); [|discriminate]. destruct D as (rf & D1 & D2 & D3). injection D1 as <-. auto. }
  assert (Lh : (List.length (h_ds h) <= List.length (h_ds h1))%nat) by (destruct C1 as ((X & ->) & _); rewrite app_length; lia).
  assert (Cs := comp_spec h1 (List.length (h_ds h)) refs (g_surv_first g) varis probs S1 Lh). cbv zeta in Cs.
  destruct (comp_st_h h1 refs (g_surv_first g) varis probs) as [h2 r2]. cbn [fst snd] in Cs. destruct Cs as (X2 & B2 & Cs).
  { intros r Hr. destruct (proj2 Fr r Hr) as (F1 & F2 & F3 & F4). auto. }
  assert (K2 := kept_ext _ _ (hs_rules s) _ _ _ C1 X2 B2).
  assert (S2 : sane h2) by (eapply sane_bs; eauto; apply ext_len; auto).
  assert (Fr2 := fresh_same h h1 h2 refs B2 Fr).
  destruct r2 as [[x|]|e]; [|cbn [fst snd]; split; [auto|]; split; [auto|]; cbn; eauto|cbn [fst snd]; auto].
  assert (Hx : (List.length (h_ds h) <= x < List.length (h_ds h2))%nat).
  { destruct (get_comp_st _ _ _ _) as [[d|]|]; try discriminate. destruct Cs as (x' & E & _ & Hx). injection E as <-. auto. }
  cbv zeta. destruct (ge_bound (len refs) (g_max_nb g)); [cbn [fst snd]; split; [auto|]; split; [auto|]; cbn; eauto|].
  destruct (qc_ltb _ _); [cbn [fst snd]; split; [auto|]; split; [auto|]; cbn; eauto|].
  destruct (ge_bound _ _); [cbn [fst snd]; split; [auto|]; split; [auto|]; cbn; eauto|].
  unfold sys_fn_h. destruct (F (hdict h2 x)) as [out d]. set (h3 := set_dict h2 x d).
  assert (K3 : kept (hrules h (hs_rules s)) (fun r => In r (start g s)) (hs_rules s) h h3) by (eapply kept_tail; eauto).
  assert (S3 : sane h3) by (eapply (sane_bs h2); [reflexivity|cbn; rewrite upd_length by lia; lia|auto]).
  destruct (run_sys_fn d (fun _ => out) varis) as [[[rule sst] sr]|e]; cbn [bind]; [|cbn [fst snd]; auto].
  destruct (update_rule_set (hrules h2 (hs_rules s)) rule sst) as [rs'|e]; [|cbn [fst snd]; auto].
  destruct (update_monitor _ _ rs') as [mon ctl]. cbn [fst snd]. split; [apply kept_rules; auto|]. split; [exact S3|].
  cbn [hs_rules hs_brs]. split; [auto|]. exists refs. split; [auto|]. exact Fr2.
Qed.
Lemma ready_next h rules (t : nat -> Prop) h' s s' refs : ready h s -> kept rules t (hs_rules s) h h' -> sane h' -> hs_rules s' = hs_rules s -> hs_brs s' = Some refs -> fresh h h' refs ->
  ready h' s'.
Proof.
  intros (_ & _ & _ & Lr) (_ & _ & K & _) S E1 E2 [F1 F2]. unfold ready, given. rewrite E1, E2. split; [auto|]. split; [auto|]. split; [intros r Hr; apply F2; auto|]. lia.
Qed.
Lemma fresh_live h h' refs r : fresh h h' refs -> live h r -> ~ In r refs.
Proof. intros [_ F] L H. destruct (F r H) as (_ & F2 & _). unfold live in L. lia. Qed.

Lemma loop_kept varis probs F g rules (t : nat -> Prop) h0 : forall fuel h s, ready h s -> kept rules t (hs_rules s) h0 h ->
  (forall r, live h0 r -> ~ In r (start g s)) ->
  let o := run_loop_h fuel h varis probs F g s in
  kept rules t (hs_rules s) h0 (fst o) /\ sane (fst o) /\
  match snd o with
  | Err _ => True
  | Ok s' => hs_rules s' = hs_rules s /\ (c_no_sf (hs_ctrl s) <? g_max_sf g = true -> exists refs, hs_brs s' = Some refs /\ fresh h0 (fst o) refs)
  end.
Proof.
  induction fuel as [|fuel IH]; intros h s Rd K0 N0; cbn [run_loop_h].
  { cbn. split; [auto|]. split; [apply Rd|auto]. }
  destruct (c_no_sf (hs_ctrl s) <? g_max_sf g) eqn:E; [|cbn [fst snd]; split; [auto|]; split; [apply Rd|]; split; [auto|discriminate]].
  assert (B := body_kept h varis probs F g s Rd). cbv zeta in B. destruct (body_h h varis probs F g s) as [h1 r1]. cbn [fst snd] in B. destruct B as (K1 & S1 & B).
  assert (K2 := kept_then rules _ t _ (hs_rules s) h0 h h1 N0 K0 K1).
  assert (Gr : forall refs, fresh h h1 refs -> fresh h0 h1 refs).
  { intros refs [F1 F2]. split; [auto|]. intros r Hr. destruct (F2 r Hr) as (J1 & J2 & J3 & J4). destruct K0 as (L1 & L2 & _). split; [auto|]. lia. }
  destruct r1 as [[s'|s']|e]; cbn [fst snd].
  - split; [auto|]. split; [auto|]. destruct B as (B1 & refs & B2 & B3). split; [auto|]. intros _. eauto.
  - destruct B as (B1 & refs & B2 & B3). assert (Rd' := ready_next h _ _ h1 s s' refs Rd K1 S1 B1 B2 B3).
    assert (I := IH h1 s' Rd'). rewrite B1 in I. destruct I as (I1 & I2 & I3); [auto| |].
    { intros r Lr. unfold start, given. rewrite B2. destruct (g_active g); [intros []|]. apply (fresh_live h0 h1 refs r (Gr refs B3) Lr). }
    cbv zeta in *. split; [auto|]. split; [auto|]. destruct (snd (run_loop_h fuel h1 varis probs F g s')) as [s2|e] eqn:E2; [|auto].
    destruct I3 as [J1 J2]. split; [congruence|]. intros _. destruct (c_no_sf (hs_ctrl s') <? g_max_sf g) eqn:E3; [auto|].
    (* the loop stops at once *)
    assert (X : run_loop_h fuel h1 varis probs F g s' = (h1, Ok s') \/ exists hh, run_loop_h fuel h1 varis probs F g s' = (hh, Err OutOfFuel)).
    { destruct fuel; cbn; [right; eauto|]. rewrite E3. auto. }
    destruct X as [X|[hh X]]; rewrite X in E2 |- *; cbn [fst snd] in *; [|discriminate]. injection E2 as <-. eauto.
  - auto.
Qed.
Lemma loop_first varis probs F g : forall fuel h s, ready h s ->
  let o := run_loop_h fuel h varis probs F g s in
  kept (hrules h (hs_rules s)) (fun r => In r (start g s)) (hs_rules s) h (fst o) /\ sane (fst o) /\
  match snd o with
  | Err _ => True
  | Ok s' => hs_rules s' = hs_rules s /\ (c_no_sf (hs_ctrl s) <? g_max_sf g = true -> exists refs, hs_brs s' = Some refs /\ fresh h (fst o) refs)
  end.
Proof.
  intros fuel h s Rd. destruct fuel as [|fuel]; cbn [run_loop_h].
  { cbn. split; [apply kept_refl|]. split; [apply Rd|auto]. }
  destruct (c_no_sf (hs_ctrl s) <? g_max_sf g) eqn:E; [|cbn [fst snd]; split; [apply kept_refl|]; split; [apply Rd|]; split; [auto|discriminate]].
  assert (B := body_kept h varis probs F g s Rd). cbv zeta in B. destruct (body_h h varis probs F g s) as [h1 r1]. cbn [fst snd] in B. destruct B as (K1 & S1 & B).
  destruct r1 as [[s'|s']|e]; cbn [fst snd].
  - split; [auto|]. split; [auto|]. destruct B as (B1 & refs & B2 & B3). split; [auto|]. intros _. eauto.
  - destruct B as (B1 & refs & B2 & B3). assert (Rd' := ready_next h _ _ h1 s s' refs Rd K1 S1 B1 B2 B3).
    assert (I := loop_kept varis probs F g (hrules h (hs_rules s)) (fun r => In r (start g s)) h fuel h1 s' Rd'). rewrite B1 in I. destruct I as (I1 & I2 & I3); [auto| |].
    { intros r Lr. unfold start, given. rewrite B2. destruct (g_active g); [intros []|]. apply (fresh_live h h1 refs r B3 Lr). }
    split; [auto|]. split; [auto|]. destruct (snd (run_loop_h fuel h1 varis probs F g s')) as [s2|e] eqn:E2; [|auto].
    destruct I3 as [J1 J2]. split; [congruence|]. intros _. destruct (c_no_sf (hs_ctrl s') <? g_max_sf g) eqn:E3; [auto|].
    assert (X : run_loop_h fuel h1 varis probs F g s' = (h1, Ok s') \/ exists hh, run_loop_h fuel h1 varis probs F g s' = (hh, Err OutOfFuel)).
    { destruct fuel; cbn; [right; eauto|]. rewrite E3. auto. }
    destruct X as [X|[hh X]]; rewrite X in E2 |- *; cbn [fst snd] in *; [|discriminate]. injection E2 as <-. eauto.
  - auto.
Qed.

(** * Comparison with the model without sharing *)
Lemma filter_tag_up k l : map b_p (filter (fun b => st_eqb (b_up_state b) k) l) = map snd (filter (fun t => st_eqb (snd (fst t)) k) (map tag l)).
Proof. induction l as [|a l IH]; cbn; [auto|]. destruct (st_eqb (b_up_state a) k); cbn; rewrite IH; auto. Qed.
Lemma filter_tag_down k l : map b_p (filter (fun b => st_eqb (b_down_state b) k) l) = map snd (filter (fun t => st_eqb (fst (fst t)) k) (map tag l)).
Proof. induction l as [|a l IH]; cbn; [auto|]. destruct (st_eqb (b_down_state a) k); cbn; rewrite IH; auto. Qed.
Lemma update_monitor_tags m l l' rules : map tag l = map tag l' -> update_monitor m l rules = update_monitor m l' rules.
Proof.
  intros E. unfold update_monitor, pr_bf, pr_bs.
  assert (Pu : forall k, map b_p (filter (fun b => st_eqb (b_up_state b) k) l) = map b_p (filter (fun b => st_eqb (b_up_state b) k) l')) by (intros k; rewrite !filter_tag_up, E; auto).
  assert (Pd : forall k, map b_p (filter (fun b => st_eqb (b_down_state b) k) l) = map b_p (filter (fun b => st_eqb (b_down_state b) k) l')) by (intros k; rewrite !filter_tag_down, E; auto).
  assert (Lu : forall k, len (filter (fun b => st_eqb (b_up_state b) k) l) = len (filter (fun b => st_eqb (b_up_state b) k) l')).
  { intros k. unfold len. rewrite <- (map_length b_p), Pu, map_length. auto. }
  assert (Ld : forall k, len (filter (fun b => st_eqb (b_down_state b) k) l) = len (filter (fun b => st_eqb (b_down_state b) k) l')).
  { intros k. unfold len. rewrite <- (map_length b_p), Pd, map_length. auto. }
  assert (Ln : len l = len l') by (unfold len; rewrite <- (map_length tag), E, map_length; auto).
  rewrite Pu, Pd, Lu, Ld, Ln. auto.
Qed.

Definition sysv (h : heap) (e : sysres_h) : sysres := (fst (fst e), hdict h (snd (fst e)), snd e).
Definition rel (full : Prop) (h : heap) (s : hstate) (t : rstate) : Prop :=
  hrules h (hs_rules s) = s_rules t /\ hs_mon s = s_mon t /\ hs_ctrl s = s_ctrl t /\
  map (fun e => (fst (fst e), snd e)) (hs_sys s) = map (fun e => (fst (fst e), snd e)) (s_sys t) /\
  option_map (fun b => map tag (map (view h) b)) (hs_brs s) = option_map (map tag) (s_brs t) /\
  (full -> option_map (map (view h)) (hs_brs s) = s_brs t /\ map (sysv h) (hs_sys s) = s_sys t) /\
  (forall e, In e (hs_sys s) -> (snd (fst e) < List.length (h_ds h))%nat).

Lemma safe_rule F d varis : safe_values F ->
  run_sys_fn (snd (F d)) (fun _ => fst (F d)) varis =
  '(rule, s, _) <- run_sys_fn d (values_of F) varis ;; Ok (rule, s, (fst (fst (fst (F d))), snd (F d), snd (fst (F d)))).
Proof.
  intros Sf. unfold run_sys_fn, values_of. destruct (fst (F d)) as [[v s] m] eqn:E. cbn [fst snd].
  destruct (Sf d) as [->|(kv & m' & X)].
  - destruct m as [[|kv m]|]; cbn [bind]; [| |]; auto; destruct s; cbn [bind]; auto; destruct (filterM _ d); cbn [bind]; auto.
  - rewrite E in X. cbn in X. subst m. cbn [bind]. auto.
Qed.

Lemma run_sys_fn_res d f varis rule s sr : run_sys_fn d f varis = Ok (rule, s, sr) -> sr = (fst (fst (f d)), d, snd (f d)).
Proof.
  unfold run_sys_fn. destruct (f d) as [[v s0] m]. cbn [fst snd]. destruct m as [[|kv m]|]; [|intros X; injection X as _ _ <-; auto|];
  (destruct s0; [|destruct (filterM _ d); cbn [bind]; [|discriminate]..]; intros X; injection X as _ _ <-; auto).
Qed.
Lemma rel_stop full h h' s t refs l f : rel full h s t -> map (view h') refs = l ->
  (forall r, (r < List.length (h_ds h))%nat -> hdict h' r = hdict h r) -> (List.length (h_ds h) <= List.length (h_ds h'))%nat ->
  hrules h' (hs_rules s) = hrules h (hs_rules s) ->
  rel full h' (mkHs (Some refs) (hs_rules s) (hs_sys s) (set_flag (hs_mon s) f) (hs_ctrl s)) (mkSt (Some l) (s_rules t) (s_sys t) (set_flag (s_mon t) f) (s_ctrl t)).
Proof.
  intros (R1 & R2 & R3 & R4 & R5 & R6 & R7) V D L Ru. unfold rel. cbn [hs_rules hs_brs hs_sys hs_mon hs_ctrl s_brs s_rules s_sys s_mon s_ctrl option_map].
  split; [congruence|]. split; [rewrite R2; auto|]. split; [auto|]. split; [auto|]. split; [rewrite V; auto|]. split.
  - intros Hf. rewrite V. split; [auto|]. destruct (R6 Hf) as [_ <-]. apply map_ext_in. intros e He. unfold sysv. rewrite D; auto.
  - intros e He. specialize (R7 e He). lia.
Qed.

Lemma body_sim (full : Prop) h varis probs F g s t : ready h s -> rel full h s t -> full \/ g_active g = true -> (full -> leaves_alone F) -> safe_values F ->
  let o := body_h h varis probs F g s in
  match run_body varis probs (values_of F) g t with
  | Err e => snd o = Err e
  | Ok (inl t') => exists s', snd o = Ok (inl s') /\ rel full (fst o) s' t'
  | Ok (inr t') => exists s', snd o = Ok (inr s') /\ rel full (fst o) s' t'
  end.
Proof.
  intros Rd R Fa Le Sf. assert (St := ready_start h g s Rd). destruct Rd as (S & _ & _ & Lr), St as [N Lv]. cbv zeta. rewrite body_start.
  assert (R' := R). destruct R' as (R1 & R2 & R3 & R4 & R5 & R6 & R7).
  assert (E0 : (if g_active g then decomp_depth_first varis (s_rules t) probs (g_max_nb g) []
          else decomp_depth_first varis (s_rules t) probs (g_max_nb g) (match s_brs t with None => [] | Some b => b end)) =
          decomp_depth_first varis (hrules h (hs_rules s)) probs (g_max_nb g) (map (view h) (start g s))).
  { rewrite R1. unfold start, given. destruct (g_active g); [auto|]. destruct Fa as [Fa|Fa]; [|discriminate]. destruct (R6 Fa) as [<- _].
    destruct (hs_brs s); auto. }
  unfold run_body. rewrite E0. clear E0.
  assert (D := decomp_spec h varis (hrules h (hs_rules s)) probs (g_max_nb g) (start g s) S N Lv). cbv zeta in D.
  destruct (decomp_h h varis (hrules h (hs_rules s)) probs (g_max_nb g) (start g s)) as [h1 r1]. cbn [fst snd] in D. destruct D as (C1 & S1 & D).
  destruct (decomp_depth_first varis (hrules h (hs_rules s)) probs (g_max_nb g) (map (view h) (start g s))) as [l|e]; cbn [bind]; [|subst r1; auto].
  destruct D as (refs & -> & V1 & Fr).
  assert (Lh : (List.length (h_ds h) <= List.length (h_ds h1))%nat) by (destruct C1 as ((X & ->) & _); rewrite app_length; lia).
  assert (Cs := comp_spec h1 (List.length (h_ds h)) refs (g_surv_first g) varis probs S1 Lh). cbv zeta in Cs. rewrite V1 in Cs.
  destruct (comp_st_h h1 refs (g_surv_first g) varis probs) as [h2 r2]. cbn [fst snd] in Cs. destruct Cs as (X2 & B2 & Cs).
  { intros r Hr. destruct (proj2 Fr r Hr) as (F1 & F2 & F3 & F4). auto. }
  assert (K2 := kept_ext _ _ (Datatypes.S (hs_rules s)) _ _ _ C1 X2 B2).
  assert (V2 : map (view h2) refs = l) by (rewrite <- V1; apply map_ext_in; intros r Hr; apply ext_view; [auto|auto|apply Fr; auto]).
  destruct K2 as (K1 & _ & K2 & K3 & K4 & _).
  assert (Ru2 : hrules h2 (hs_rules s) = hrules h (hs_rules s)) by (apply K4; lia).
  assert (Stop := fun f => rel_stop full h h2 s t refs l f R V2 K3 K1 Ru2).
  destruct (get_comp_st l (g_surv_first g) varis probs) as [[d|]|e]; cbn [bind].
  3:{ subst r2. auto. }
  2:{ subst r2. cbn [fst snd]. eexists. split; [reflexivity|]. apply Stop. }
  destruct Cs as (x & -> & Hd & Hx). rewrite Ru2. cbv zeta.
  assert (Ll : len refs = len l) by (unfold len; rewrite <- V2, map_length; auto). rewrite Ll.
  destruct (ge_bound (len l) (g_max_nb g)); [cbn [fst snd]; eexists; split; [reflexivity|]; apply Stop|].
  rewrite R3 in Stop |- *. destruct (qc_ltb _ _); [cbn [fst snd]; eexists; split; [reflexivity|]; apply Stop|].
  rewrite R1. destruct (ge_bound _ (g_max_rules g)); [cbn [fst snd]; eexists; split; [reflexivity|]; apply Stop|].
  unfold sys_fn_h. rewrite Hd. rewrite (surjective_pairing (F d)). rewrite (safe_rule F d varis Sf).
  destruct (run_sys_fn d (values_of F) varis) as [[[rule sst] sr]|e] eqn:Er; cbn [bind]; [|auto].
  apply run_sys_fn_res in Er. destruct (update_rule_set (s_rules t) rule sst) as [rs'|e]; cbn [bind]; [|auto].
  set (h3 := set_dict h2 x (snd (F d))). set (h4 := set_rules h3 (hs_rules s) rs').
  assert (T4 : map tag (map (view h4) refs) = map tag l).
  { rewrite <- V2, !map_map. apply map_ext. intros r. reflexivity. }
  rewrite (update_monitor_tags _ _ l rs' T4), R2.
  destruct (update_monitor (push_no_sf (s_mon t) (c_no_sf (s_ctrl t) + 1)) l rs') as [mon ctl].
  cbn [fst snd]. eexists. split; [reflexivity|]. unfold rel. cbn [hs_rules hs_brs hs_sys hs_mon hs_ctrl s_brs s_rules s_sys s_mon s_ctrl option_map].
  split; [apply set_rules_same; cbn; lia|]. split; [auto|]. split; [auto|]. split; [rewrite !map_app; f_equal; [exact R4|rewrite Er; auto]|]. split; [rewrite T4; auto|]. split.
  - intros Hf. assert (Hl := Le Hf d).
    assert (E3 : h3 = h2) by (unfold h3; rewrite Hl, <- Hd; apply set_dict_id; lia).
    assert (Dd : forall r, hdict h4 r = hdict h2 r) by (intros r; change (hdict h4 r) with (hdict h3 r); rewrite E3; auto).
    assert (Vv : map (view h4) refs = l). { rewrite <- V2. apply map_ext. intros r. unfold view. rewrite !Dd. reflexivity. }
    rewrite Vv. split; [auto|]. rewrite map_app. f_equal.
    + destruct (R6 Hf) as [_ <-]. apply map_ext_in. intros e He. unfold sysv. rewrite Dd, K3; auto.
    + cbn [map]. rewrite Er. unfold sysv, values_of. cbn [fst snd]. rewrite Dd, Hd. auto.
  - assert (L4 : List.length (h_ds h4) = List.length (h_ds h2)) by (cbn; apply upd_length; lia).
    intros e He. rewrite L4. apply in_app_iff in He as [He|[<-|[]]]; [specialize (R7 e He); lia|cbn; lia].
Qed.

Lemma loop_sim (full : Prop) varis probs F g : full \/ g_active g = true -> (full -> leaves_alone F) -> safe_values F ->
  forall fuel h s t, ready h s -> rel full h s t ->
  let o := run_loop_h fuel h varis probs F g s in
  match run_loop fuel varis probs (values_of F) g t with
  | Err e => snd o = Err e
  | Ok t' => exists s', snd o = Ok s' /\ rel full (fst o) s' t'
  end.
Proof.
  intros Fa Le Sf. induction fuel as [|fuel IH]; intros h s t Rd R; cbn [run_loop_h run_loop]; [auto|].
  assert (Ec : hs_ctrl s = s_ctrl t) by apply R. rewrite Ec.
  destruct (c_no_sf (s_ctrl t) <? g_max_sf g); [|cbn [fst snd]; eauto].
  assert (B := body_sim full h varis probs F g s t Rd R Fa Le Sf). assert (K := body_kept h varis probs F g s Rd). cbv zeta in B, K.
  destruct (body_h h varis probs F g s) as [h1 r1]. cbn [fst snd] in B, K. destruct K as (K1 & S1 & K).
  destruct (run_body varis probs (values_of F) g t) as [[t'|t']|e]; cbn [bind].
  - destruct B as (s' & -> & B). cbn [fst snd]. eauto.
  - destruct B as (s' & -> & B). destruct K as (B1 & refs & B2 & B3). apply IH; [|auto]. eapply ready_next; eauto.
  - subst r1. auto.
Qed.
