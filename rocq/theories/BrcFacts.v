(** Facts about the search of brc.py: component space, rules, boxes. *)
From Coq Require Import ZArith List String Bool Arith Lia Permutation QArith Qcanon.
From Verif Require Import Py Num Vari VariFacts PyFacts Brc SpecBrc.
Import ListNotations.
Open Scope Z_scope.
Open Scope list_scope.

Notation sp varis := (space (comps_of varis)).

(** * The space of vectors *)
Lemma keys_comps_of varis : keys (comps_of varis) = keys varis.
Proof. unfold keys, comps_of. rewrite map_map. auto. Qed.

Lemma coord_cons k v x k' : coord ((k, v) :: x) k' = if String.eqb k' k then v else coord x k'.
Proof. unfold coord. cbn. destruct (String.eqb k' k); auto. Qed.

Lemma coord_In (x : dict Z) k v : NoDup (keys x) -> In (k, v) x -> coord x k = v.
Proof. intros H1 H2. unfold coord. rewrite (In_dfind _ _ _ H1 H2). auto. Qed.

Lemma coord_pair (x : dict Z) k : In k (keys x) -> In (k, coord x k) x.
Proof.
  intros H. unfold coord. apply dfind_keys in H as [a H]. rewrite H. apply dfind_In. auto.
Qed.

Lemma coord_dset x k v k' : coord (dset x k v) k' = if String.eqb k' k then v else coord x k'.
Proof. unfold coord. rewrite dfind_dset. destruct (String.eqb k' k); auto. Qed.

Lemma space_spec cs x :
  In x (space cs) <-> Forall2 (fun kv kn => fst kv = fst kn /\ 0 <= snd kv < snd kn) x cs.
Proof.
  revert x; induction cs as [|[k n] cs IH]; intros x; cbn.
  - split; [intros [<-|[]]; constructor|]. intros H; inversion H; auto.
  - rewrite in_flat_map. split.
    + intros (v & Hv & Hx). apply in_map_iff in Hx as (y & <- & Hy). apply In_zrange in Hv.
      constructor; [cbn; split; [auto|lia]|]. apply IH; auto.
    + intros H. inversion H as [|[k' v] ? y ? [E Hv] Hy]; subst. cbn in *. subst k'.
      exists v. split; [apply In_zrange; lia|]. apply in_map. apply IH; auto.
Qed.

Lemma space_keys cs x : In x (space cs) -> keys x = keys cs.
Proof.
  intros H. apply space_spec in H. unfold keys. induction H as [|a b x' cs' [E _] _ IH]; cbn; [auto|congruence].
Qed.

Lemma space_coord cs x k n : NoDup (keys cs) -> In x (space cs) -> In (k, n) cs -> 0 <= coord x k < n.
Proof.
  intros Hd H. apply space_spec in H. revert Hd. induction H as [|[k1 v1] [k2 n2] x' cs' [E B] F IH]; cbn; intros Hd Hin; [tauto|].
  cbn in *. subst k2. inversion_clear Hd as [|? ? Hn Hd'].
  rewrite coord_cons. destruct Hin as [E|Hin].
  - injection E as -> ->. rewrite String.eqb_refl. auto.
  - destruct (String.eqb_spec k k1) as [->|]; [|auto].
    exfalso. apply Hn. apply In_keys in Hin. auto.
Qed.

Lemma space_intro cs x :
  NoDup (keys cs) -> keys x = keys cs ->
  (forall k n, In (k, n) cs -> 0 <= coord x k < n) -> In x (space cs).
Proof.
  intros Hd Hk H. apply space_spec. revert x Hk H Hd.
  induction cs as [|[k n] cs IH]; intros [|[k1 v1] x] Hk H Hd; cbn in Hk; try congruence; [constructor|].
  injection Hk as -> Hk. inversion_clear Hd as [|? ? Hn Hd']. constructor.
  - cbn. split; auto. specialize (H k n (or_introl eq_refl)). rewrite coord_cons, String.eqb_refl in H. auto.
  - apply IH; auto. intros k' n' Hin. specialize (H k' n' (or_intror Hin)). rewrite coord_cons in H.
    destruct (String.eqb_spec k' k) as [->|]; auto. exfalso. apply Hn. apply In_keys in Hin. auto.
Qed.

Lemma vec_ext (x y : dict Z) :
  NoDup (keys x) -> keys x = keys y -> (forall k, In k (keys x) -> coord x k = coord y k) -> x = y.
Proof.
  revert y; induction x as [|[k v] x IH]; intros [|[k1 v1] y] Hd Hk H; cbn in Hk; try congruence.
  injection Hk as <- Hk. inversion_clear Hd as [|? ? Hn Hd'].
  f_equal.
  - f_equal. specialize (H k (or_introl eq_refl)). rewrite !coord_cons, String.eqb_refl in H. auto.
  - apply IH; auto. intros k' Hk'. specialize (H k' (or_intror Hk')). rewrite !coord_cons in H.
    destruct (String.eqb_spec k' k) as [E|]; auto. exfalso. apply Hn. rewrite <- E. auto.
Qed.

Lemma space_NoDup cs : NoDup (space cs).
Proof.
  induction cs as [|[k n] cs IH]; cbn; [repeat constructor; cbn; tauto|].
  assert (Hz := zrange_NoDup 0 n). induction (zrange 0 n) as [|v l IHl]; cbn; [constructor|].
  inversion_clear Hz as [|? ? Hn Hd]. apply NoDup_app_intro; auto.
  - apply FinFun.Injective_map_NoDup; auto. intros a b; congruence.
  - intros x Hx Hx'. apply in_map_iff in Hx as (y & <- & _).
    apply in_flat_map in Hx' as (v' & Hv' & Hx'). apply in_map_iff in Hx' as (y' & E & _).
    injection E as -> _. auto.
Qed.

Section Space.
Context (varis : dict variable) (Hw : wf_varis varis).

Lemma wfv_nodup : NoDup (keys varis).
Proof. apply Hw. Qed.

Lemma sp_keys x : In x (sp varis) -> keys x = keys varis.
Proof. intros H. rewrite (space_keys _ _ H). apply keys_comps_of. Qed.

Lemma sp_nodup x : In x (sp varis) -> NoDup (keys x).
Proof. intros H. rewrite (sp_keys _ H). apply wfv_nodup. Qed.

Lemma sp_coord x k v : In x (sp varis) -> In (k, v) varis -> 0 <= coord x k < nvals v.
Proof.
  intros H1 H2. apply (space_coord (comps_of varis)); auto.
  - rewrite keys_comps_of. apply wfv_nodup.
  - unfold comps_of. apply in_map_iff. exists (k, v). auto.
Qed.

Lemma sp_intro x :
  keys x = keys varis -> (forall k v, In (k, v) varis -> 0 <= coord x k < nvals v) -> In x (sp varis).
Proof.
  intros H1 H2. apply space_intro.
  - rewrite keys_comps_of. apply wfv_nodup.
  - rewrite keys_comps_of. auto.
  - intros k n Hin. unfold comps_of in Hin. apply in_map_iff in Hin as ([k' v] & E & Hin).
    cbn in E. injection E as -> <-. auto.
Qed.

Lemma varis_find k : In k (keys varis) -> exists v, In (k, v) varis /\ dfind varis k = Some v.
Proof. intros H. apply dfind_keys in H as [v H]. exists v. split; auto. apply dfind_In; auto. Qed.

(** [le_vec] *)
Lemma le_vec_refl x : le_vec varis x x.
Proof. intros k _. lia. Qed.
Lemma le_vec_trans x y z : le_vec varis x y -> le_vec varis y z -> le_vec varis x z.
Proof. intros H1 H2 k Hk. specialize (H1 k Hk). specialize (H2 k Hk). lia. Qed.

(** rules *)
Lemma sat_s_spec r x : sat_s r x = true <-> forall k v, In (k, v) r -> v <= coord x k.
Proof.
  unfold sat_s. rewrite forallb_forall. split.
  - intros H k v Hin. specialize (H _ Hin). cbn in H. lia.
  - intros H [k v] Hin. specialize (H _ _ Hin). cbn. lia.
Qed.
Lemma sat_f_spec r x : sat_f r x = true <-> forall k v, In (k, v) r -> coord x k <= v.
Proof.
  unfold sat_f. rewrite forallb_forall. split.
  - intros H k v Hin. specialize (H _ Hin). cbn in H. lia.
  - intros H [k v] Hin. specialize (H _ _ Hin). cbn. lia.
Qed.

Lemma sat_s_mono r x y : wf_rule varis r -> le_vec varis x y -> sat_s r x = true -> sat_s r y = true.
Proof.
  intros [_ Hi] Hle H. rewrite sat_s_spec in *. intros k v Hin.
  specialize (H k v Hin). specialize (Hle k (Hi k (In_keys _ _ _ Hin))). lia.
Qed.
Lemma sat_f_anti r x y : wf_rule varis r -> le_vec varis x y -> sat_f r y = true -> sat_f r x = true.
Proof.
  intros [_ Hi] Hle H. rewrite sat_f_spec in *. intros k v Hin.
  specialize (H k v Hin). specialize (Hle k (Hi k (In_keys _ _ _ Hin))). lia.
Qed.

Lemma match_s_spec rs x : match_s rs x = true <-> exists r, In r (r_s rs) /\ sat_s r x = true.
Proof. apply existsb_exists. Qed.
Lemma match_f_spec rs x : match_f rs x = true <-> exists r, In r (r_f rs) /\ sat_f r x = true.
Proof. apply existsb_exists. Qed.

Lemma match_s_mono rs x y :
  wf_rules varis rs -> le_vec varis x y -> match_s rs x = true -> match_s rs y = true.
Proof.
  intros [Hs _] Hle H. apply match_s_spec in H as (r & Hr & H). apply match_s_spec. exists r.
  split; auto. eapply sat_s_mono; eauto.
Qed.
Lemma match_f_anti rs x y :
  wf_rules varis rs -> le_vec varis x y -> match_f rs y = true -> match_f rs x = true.
Proof.
  intros [_ Hf] Hle H. apply match_f_spec in H as (r & Hr & H). apply match_f_spec. exists r.
  split; auto. eapply sat_f_anti; eauto.
Qed.

(** no vector is matched by rules of both kinds *)
Definition consistent (rs : ruleset) : Prop :=
  forall x, In x (sp varis) -> match_s rs x = true -> match_f rs x = true -> False.

Lemma sound_consistent phi rs : sound_rules varis phi rs -> consistent rs.
Proof.
  intros [H1 H2] x Hx Hs Hf. apply match_s_spec in Hs as (r & Hr & Hs). apply match_f_spec in Hf as (r' & Hr' & Hf).
  specialize (H1 r x Hr Hx Hs). specialize (H2 r' x Hr' Hx Hf). congruence.
Qed.

(** boxes *)
Definition wf_br (b : branch) : Prop :=
  In (b_down b) (sp varis) /\ In (b_up b) (sp varis) /\ le_vec varis (b_down b) (b_up b).

Lemma in_branch_spec b x :
  In x (sp varis) ->
  (in_branch b x = true <-> le_vec varis (b_down b) x /\ le_vec varis x (b_up b)).
Proof.
  intros Hx. unfold in_branch. rewrite forallb_forall. assert (Hd := sp_nodup x Hx). split.
  - intros H. split; intros k Hk; rewrite <- (sp_keys x Hx) in Hk; apply coord_pair in Hk;
      specialize (H _ Hk); cbn in H; lia.
  - intros [H1 H2] [k v] Hin. cbn. rewrite <- (coord_In x k v Hd Hin).
    assert (Hk : In k (keys varis)) by (rewrite <- (sp_keys x Hx); eapply In_keys; eauto).
    specialize (H1 k Hk). specialize (H2 k Hk). lia.
Qed.

(** * Pure forms of the model functions *)
Lemma all_ge_ok d r : incl (keys r) (keys d) -> all_ge d r = Ok (sat_s r d).
Proof.
  intros Hi. unfold all_ge, sat_s. apply allM_ok. intros [k v] Hin. cbn.
  unfold dget, coord. destruct (dfind d k) eqn:E; auto.
  exfalso. apply dfind_none in E. apply E, Hi. eapply In_keys; eauto.
Qed.
Lemma all_le_ok d r : incl (keys r) (keys d) -> all_le d r = Ok (sat_f r d).
Proof.
  intros Hi. unfold all_le, sat_f. apply allM_ok. intros [k v] Hin. cbn.
  unfold dget, coord. destruct (dfind d k) eqn:E; auto.
  exfalso. apply dfind_none in E. apply E, Hi. eapply In_keys; eauto.
Qed.

Lemma filterM_ok {A} (f : A -> res bool) (g : A -> bool) l :
  (forall a, In a l -> f a = Ok (g a)) -> filterM f l = Ok (filter g l).
Proof.
  induction l; cbn; intros H; auto. rewrite (H a) by auto. cbn. rewrite IHl by auto. cbn.
  destruct (g a); auto.
Qed.

Definition nonempty {A} (l : list A) : bool := match l with [] => false | _ => true end.

Lemma compat_list_ok (all_cmp : dict Z -> res bool) (g : dict Z -> bool) keep (kg : string * Z -> bool) rules :
  (forall r, In r rules -> all_cmp r = Ok (g r)) ->
  (forall r kv, In r rules -> In kv r -> keep kv = Ok (kg kv)) ->
  compat_list all_cmp keep rules = Ok (filter nonempty (map (filter kg) (filter g rules))).
Proof.
  unfold compat_list. intros H1 H2.
  assert (G : forall acc,
    foldM (fun acc rule => b <- all_cmp rule ;;
             if b then c_rule <- filterM keep rule ;;
               Ok (match c_rule with [] => acc | _ => acc ++ [c_rule] end) else Ok acc) rules acc
    = Ok (acc ++ filter nonempty (map (filter kg) (filter g rules)))).
  { induction rules as [|r rules IH]; intros acc; cbn; [rewrite app_nil_r; auto|].
    rewrite (H1 r) by (left; auto). cbn. destruct (g r); cbn.
    - rewrite (filterM_ok keep kg) by (intros; apply (H2 r); cbn; auto). cbn.
      destruct (filter kg r) as [|p l] eqn:E; cbn; rewrite IH;
        try (intros; (apply H1 || eapply H2); cbn; eauto); auto.
      rewrite <- app_assoc. auto.
    - apply IH; intros; [apply H1|eapply H2]; cbn; eauto. }
  rewrite G. auto.
Qed.

Definition compat_s (b : branch) (rs : list (dict Z)) : list (dict Z) :=
  filter nonempty (map (filter (fun kv => coord (b_down b) (fst kv) <? snd kv))
                       (filter (fun r => sat_s r (b_up b)) rs)).
Definition compat_f (b : branch) (rs : list (dict Z)) : list (dict Z) :=
  filter nonempty (map (filter (fun kv => snd kv <? coord (b_up b) (fst kv)))
                       (filter (fun r => sat_f r (b_down b)) rs)).
Definition compat (b : branch) (rs : ruleset) : ruleset :=
  mkRules (compat_s b (r_s rs)) (compat_f b (r_f rs)).

Lemma dget_coord (d : dict Z) k : In k (keys d) -> dget d k = Ok (coord d k).
Proof. intros H. apply dfind_keys in H as [a H]. unfold dget, coord. rewrite H. auto. Qed.

Lemma get_compat_rules_ok b rs :
  keys (b_down b) = keys varis -> keys (b_up b) = keys varis -> wf_rules varis rs ->
  get_compat_rules b rs = Ok (compat b rs).
Proof.
  intros Hd Hu [Hs Hf]. unfold get_compat_rules.
  rewrite (compat_list_ok _ (fun r => sat_s r (b_up b)) _ (fun kv => coord (b_down b) (fst kv) <? snd kv)).
  2:{ intros r Hr. apply all_ge_ok. rewrite Hu. apply Hs; auto. }
  2:{ intros r kv Hr Hin. rewrite dget_coord; [auto|]. rewrite Hd. apply (Hs r Hr). apply in_map; auto. }
  cbn [bind].
  rewrite (compat_list_ok _ (fun r => sat_f r (b_down b)) _ (fun kv => snd kv <? coord (b_up b) (fst kv))).
  2:{ intros r Hr. apply all_le_ok. rewrite Hd. apply Hf; auto. }
  2:{ intros r kv Hr Hin. rewrite dget_coord; [auto|]. rewrite Hu. apply (Hf r Hr). apply in_map; auto. }
  auto.
Qed.

Definition gstate (x : dict Z) (rs : ruleset) : st :=
  let no_s := count_true (map (fun r => sat_s r x) (r_s rs)) in
  let no_f := count_true (map (fun r => sat_f r x) (r_f rs)) in
  if (no_s =? 0)%nat && (no_f =? 0)%nat then U_ else if (no_f <=? no_s)%nat then S_ else F_.

Lemma get_state_ok x rs :
  keys x = keys varis -> wf_rules varis rs -> get_state x rs = Ok (gstate x rs).
Proof.
  intros Hk [Hs Hf]. unfold get_state.
  rewrite (mapM_ok _ (fun r => sat_s r x)) by (intros r Hr; apply all_ge_ok; rewrite Hk; apply Hs; auto).
  cbn [bind].
  rewrite (mapM_ok _ (fun r => sat_f r x)) by (intros r Hr; apply all_le_ok; rewrite Hk; apply Hf; auto).
  auto.
Qed.

Lemma count_s_zero x rs : count_true (map (fun r => sat_s r x) (r_s rs)) = O <-> match_s rs x = false.
Proof. unfold count_true, match_s. rewrite count_true_zero, existsb_map. tauto. Qed.
Lemma count_f_zero x rs : count_true (map (fun r => sat_f r x) (r_f rs)) = O <-> match_f rs x = false.
Proof. unfold count_true, match_f. rewrite count_true_zero, existsb_map. tauto. Qed.

Lemma gstate_U x rs : gstate x rs = U_ <-> match_s rs x = false /\ match_f rs x = false.
Proof.
  unfold gstate. rewrite <- count_s_zero, <- count_f_zero.
  set (a := count_true (map (fun r => sat_s r x) (r_s rs))).
  set (c := count_true (map (fun r => sat_f r x) (r_f rs))).
  destruct (Nat.eqb_spec a 0), (Nat.eqb_spec c 0); cbn; try tauto;
    destruct (c <=? a)%nat; split; try congruence; tauto.
Qed.
Lemma gstate_S x rs : gstate x rs = S_ -> match_s rs x = true.
Proof.
  intros H. destruct (match_s rs x) eqn:E; auto. exfalso. unfold gstate in H.
  rewrite (proj2 (count_s_zero x rs) E) in H. cbn in H.
  destruct (Nat.eqb_spec (count_true (map (fun r => sat_f r x) (r_f rs))) 0) as [E'|N]; [congruence|].
  destruct (Nat.leb_spec (count_true (map (fun r => sat_f r x) (r_f rs))) 0); [lia|congruence].
Qed.
Lemma gstate_F x rs : gstate x rs = F_ -> match_f rs x = true.
Proof.
  intros H. destruct (match_f rs x) eqn:E; auto. exfalso. unfold gstate in H.
  rewrite (proj2 (count_f_zero x rs) E) in H. cbn in H.
  destruct (_ =? _)%nat; cbn in H; congruence.
Qed.

(** [eval_loop] and [eval_state] *)
Definition eval_pure (g : dict Z -> bool) (s : st) (rules : list (dict Z)) (cur : st) : st :=
  match cur with U_ => if existsb g rules then s else U_ | _ => cur end.

Lemma eval_loop_ok test g s rules : forall cur,
  s <> U_ -> (forall r, In r rules -> test r = Ok (g r)) ->
  eval_loop test s rules cur = Ok (eval_pure g s rules cur).
Proof.
  induction rules as [|r rules IH]; intros cur Hs H; cbn [eval_loop].
  - destruct cur; auto.
  - destruct cur; auto. cbn [st_eqb negb]. rewrite (H r) by (left; auto). cbn [bind].
    rewrite IH by (auto; intros; apply H; right; auto). f_equal. cbn.
    destruct (g r); cbn; [destruct s; cbn; auto; congruence|auto].
Qed.

Definition eval_end (x : dict Z) (rs : ruleset) (cur : st) : st :=
  match cur with U_ => if match_s rs x then S_ else if match_f rs x then F_ else U_ | _ => cur end.

Definition eval_br (b : branch) (rs : ruleset) : branch :=
  mkBr (b_down b) (b_up b) (eval_end (b_down b) rs (b_down_state b)) (eval_end (b_up b) rs (b_up_state b)) (b_p b).

Lemma eval_state_ok b rs :
  keys (b_down b) = keys varis -> keys (b_up b) = keys varis -> wf_rules varis rs ->
  eval_state b rs = Ok (eval_br b rs).
Proof.
  intros Hd Hu [Hs Hf]. unfold eval_state.
  rewrite !(eval_loop_ok _ (fun r => sat_s r (b_up b)) S_)
    by (try congruence; intros r Hr; apply all_ge_ok; rewrite Hu; apply Hs; auto). cbn [bind].
  rewrite !(eval_loop_ok _ (fun r => sat_s r (b_down b)) S_)
    by (try congruence; intros r Hr; apply all_ge_ok; rewrite Hd; apply Hs; auto). cbn [bind].
  rewrite !(eval_loop_ok _ (fun r => sat_f r (b_up b)) F_)
    by (try congruence; intros r Hr; apply all_le_ok; rewrite Hu; apply Hf; auto). cbn [bind].
  rewrite !(eval_loop_ok _ (fun r => sat_f r (b_down b)) F_)
    by (try congruence; intros r Hr; apply all_le_ok; rewrite Hd; apply Hf; auto). cbn [bind].
  unfold eval_br, eval_end, eval_pure, match_s, match_f.
  destruct (b_up_state b), (b_down_state b); auto;
    destruct (existsb (fun r => sat_s r (b_up b)) (r_s rs));
    destruct (existsb (fun r => sat_s r (b_down b)) (r_s rs)); auto.
Qed.

End Space.
