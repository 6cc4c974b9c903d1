(** The path-based branch and bound: lemmas. *)
From Coq Require Import ZArith List String Bool Arith Lia Permutation Sorting.
From Verif Require Import Py PyFacts Num Vari VariFacts Brc SpecBrc BrcFacts Bnb SpecBnb.
Import ListNotations.
Open Scope string_scope.
Open Scope Z_scope.
Open Scope list_scope.

Lemma forallb_map_id {A} (f : A -> bool) l : forallb (fun b => b) (map f l) = forallb f l.
Proof. induction l as [|a l IH]; auto. cbn. rewrite IH. auto. Qed.

Lemma NoDup_incl_length_lt {A} (l l' : list A) a : NoDup l -> incl l l' -> In a l' -> ~ In a l -> (List.length l < List.length l')%nat.
Proof.
  intros N I Ha Na. assert (NoDup (a :: l)) by (constructor; auto).
  pose proof (NoDup_incl_length H (l' := l')) as L. cbn in L. apply L. intros x [<-|Hx]; auto.
Qed.

(** ** the system state *)
Definition survb (cond : Z) (x : dict Z) (path : list string) : bool :=
  match path with [] => false | _ => forallb (fun k => match dfind x k with Some v => v =? cond | None => false end) path end.

Lemma survb_spec cond x path : survb cond x path = true <-> survives cond x path.
Proof.
  unfold survb, survives. destruct path as [|k path]; [split; [discriminate|intros [H _]; congruence]|].
  rewrite forallb_forall. split.
  - intros H. split; [discriminate|]. intros j Hj. specialize (H j Hj). destruct (dfind x j); [|discriminate]. f_equal. lia.
  - intros [_ H] j Hj. rewrite (H j Hj). lia.
Qed.

Lemma surv_ok cond x path : incl path (keys x) ->
  exists bs, surv_list x cond path = Ok bs /\ path_surv bs = survb cond x path.
Proof.
  intros H. exists (map (fun k => match dfind x k with Some v => v =? cond | None => false end) path). split.
  - unfold surv_list. apply mapM_ok. intros k Hk. unfold dget.
    destruct (dfind x k) eqn:E; auto. apply dfind_none in E. exfalso. apply E, H, Hk.
  - unfold path_surv, survb. destruct path as [|k path]; auto. cbn [map forallb]. f_equal. rewrite forallb_map_id. auto.
Qed.

Lemma eval_loop_ok cond x s l : (forall e, In e l -> incl (pe_path e) (keys x)) ->
  eval_loop l x cond s = Ok (match find (fun e => survb cond x (pe_path e)) l with Some e => pe_state e | None => s end).
Proof.
  induction l as [|e l IH]; intros H; auto. cbn [eval_loop find].
  destruct (surv_ok cond x (pe_path e)) as (bs & -> & E); [apply H; left; auto|]. cbn [bind]. rewrite E.
  destruct (survb cond x (pe_path e)); auto. apply IH. intros; apply H; right; auto.
Qed.

Definition ev (cond : Z) (pti : list path_entry) (x : dict Z) : Z :=
  match find (fun e => survb cond x (pe_path e)) pti with
  | Some e => pe_state e
  | None => match pti with e :: _ => pe_state e | [] => 0 end
  end.

Lemma eval_ok cond pti x : pti <> [] -> (forall e, In e pti -> incl (pe_path e) (keys x)) ->
  eval_sys_state pti x cond = Ok (ev cond pti x).
Proof.
  intros N H. unfold eval_sys_state, ev. destruct pti as [|e l]; [congruence|]. rewrite eval_loop_ok by auto. auto.
Qed.

Lemma find_first {A} (f : A -> bool) l : match find f l with
  | Some e => exists pre post, l = pre ++ e :: post /\ f e = true /\ forall x, In x pre -> f x = false
  | None => forall x, In x l -> f x = false end.
Proof.
  induction l as [|a l IH]; cbn [find]; [intros x []|]. destruct (f a) eqn:E.
  - exists [], l. split; auto. split; auto. intros x [].
  - destruct (find f l) as [e|].
    + destruct IH as (pre & post & -> & H1 & H2). exists (a :: pre), post. split; auto. split; auto. intros x [<-|Hx]; auto.
    + intros x [<-|Hx]; auto.
Qed.

Lemma ev_state cond pti x : pti <> [] -> sys_state_of cond pti x (ev cond pti x).
Proof.
  intros N. unfold ev. pose proof (find_first (fun e => survb cond x (pe_path e)) pti) as H. destruct (find _ pti) as [e|].
  - left. destruct H as (pre & post & E & H1 & H2). exists pre, e. split; auto. split; [eauto|]. split; [apply survb_spec; auto|].
    intros e' He' X. apply survb_spec in X. rewrite H2 in X; auto. discriminate.
  - right. destruct pti as [|e l]; [congruence|]. split; [|eauto]. intros e' He' X. apply survb_spec in X. rewrite H in X; auto. discriminate.
Qed.

Lemma first_unique cond x pti pre e pre' e' : first_surviving cond x pti pre e -> first_surviving cond x pti pre' e' -> pre = pre' /\ e = e'.
Proof.
  intros ((post & E) & S1 & N1) ((post' & E') & S2 & N2). rewrite E in E'. clear E pti. revert pre' E' N2.
  induction pre as [|a pre IH]; intros [|b pre'] E' N2; cbn in E'.
  - injection E' as <- _. auto.
  - injection E' as -> _. exfalso. apply (N2 b (or_introl eq_refl)); auto.
  - injection E' as -> _. exfalso. apply (N1 e' (or_introl eq_refl)); auto.
  - injection E' as <- E'. destruct (IH (fun e0 H => N1 e0 (or_intror H)) pre' E' (fun e0 H => N2 e0 (or_intror H))) as [-> ->]. auto.
Qed.

Lemma state_unique cond pti x s t : sys_state_of cond pti x s -> sys_state_of cond pti x t -> s = t.
Proof.
  intros [(pre & e & F & ->)|(N & e & l & -> & ->)] [(pre' & e' & F' & ->)|(N' & e' & l' & E' & ->)].
  - destruct (first_unique _ _ _ _ _ _ _ F F') as [_ ->]. auto.
  - exfalso. destruct F as ((post & E) & S & _). apply (N' e); auto. rewrite E. apply in_or_app. right; left; auto.
  - exfalso. destruct F' as ((post & E) & S & _). apply (N e'); auto. rewrite E. apply in_or_app. right; left; auto.
  - injection E' as -> _. auto.
Qed.
Lemma ev_unique cond pti x s : sys_state_of cond pti x s -> s = ev cond pti x.
Proof.
  intros H. eapply state_unique; eauto. apply ev_state. destruct H as [(pre & e & ((post & ->) & _) & _)|(_ & e & l & -> & _)]; [destruct pre|]; discriminate.
Qed.

Lemma survives_more cond x y path : (forall k, dfind x k = Some cond -> dfind y k = Some cond) -> survives cond x path -> survives cond y path.
Proof. intros H [N S]. split; auto. Qed.

(** more surviving arcs: an earlier (or the same) path *)
Lemma first_more cond x y pti pre e : (forall k, dfind x k = Some cond -> dfind y k = Some cond) ->
  first_surviving cond x pti pre e -> exists pre' e', first_surviving cond y pti pre' e' /\ (List.length pre' <= List.length pre)%nat /\
    exists m, pre ++ [e] = pre' ++ e' :: m.
Proof.
  intros H ((post & E) & S & N).
  pose proof (find_first (fun e => survb cond y (pe_path e)) (pre ++ [e])) as F. destruct (find _ (pre ++ [e])) as [e'|].
  - destruct F as (pre' & m & E1 & F1 & F2). exists pre', e'. split; [|split; [|eauto]].
    + split; [|split].
      * exists (m ++ post). rewrite E. change (e :: post) with ([e] ++ post). rewrite app_assoc, E1, <- app_assoc. auto.
      * apply survb_spec; auto.
      * intros e0 H0 X. apply survb_spec in X. rewrite F2 in X; auto. discriminate.
    + apply (f_equal (@List.length _)) in E1. rewrite !app_length in E1. cbn in E1. lia.
  - exfalso. assert (X : survb cond y (pe_path e) = true) by (apply survb_spec, (survives_more cond x y); auto).
    rewrite F in X; [discriminate|]. apply in_or_app. right; left; auto.
Qed.

(** ** boxes of arc states *)
Section Arcs.
Context (names : list string) (Nn : NoDup names).
Notation AS := (arc_states names).

Lemma as_comps_keys : keys (map (fun k : string => (k, 2)) names) = names.
Proof. unfold keys. rewrite map_map. apply map_id. Qed.
Lemma as_keys x : In x AS -> keys x = names.
Proof. intros H. rewrite (space_keys _ _ H). apply as_comps_keys. Qed.
Lemma as_coord x k : In x AS -> In k names -> coord x k = 0 \/ coord x k = 1.
Proof.
  intros H Hk. assert (0 <= coord x k < 2); [|lia]. eapply space_coord; [|exact H|].
  - rewrite as_comps_keys. auto.
  - apply in_map_iff. eauto.
Qed.
Lemma as_intro x : keys x = names -> (forall k, In k names -> coord x k = 0 \/ coord x k = 1) -> In x AS.
Proof.
  intros H1 H2. apply space_intro; [rewrite as_comps_keys; auto|rewrite as_comps_keys; auto|].
  intros k n Hk. apply in_map_iff in Hk as (k' & [= <- <-] & Hk). destruct (H2 k' Hk) as [-> | ->]; lia.
Qed.
Lemma as_find x k : In x AS -> In k names -> dfind x k = Some (coord x k).
Proof.
  intros H Hk. unfold coord. rewrite <- (as_keys x H) in Hk. apply dfind_keys in Hk as [v ->]. auto.
Qed.

Lemma in_box_spec lo up x : In x AS -> (in_box lo up x = true <-> forall k, In k names -> coord lo k <= coord x k <= coord up k).
Proof.
  intros H. unfold in_box. rewrite forallb_forall. pose proof (as_keys x H) as K. split.
  - intros F k Hk. assert (In (k, coord x k) x) by (apply coord_pair; rewrite K; auto). specialize (F _ H0). cbn in F. lia.
  - intros F [k v] Hin. cbn [fst snd]. assert (Hk : In k names) by (rewrite <- K; eapply In_keys; eauto).
    assert (E : coord x k = v) by (apply coord_In; [rewrite K; auto|auto]). specialize (F k Hk). lia.
Qed.

Lemma set_arc_keys a v d : keys (set_arc a v d) = keys d.
Proof. unfold set_arc, keys. rewrite map_map. auto. Qed.
Lemma set_arc_coord a v d k : In k (keys d) -> coord (set_arc a v d) k = if String.eqb k a then v else coord d k.
Proof.
  unfold set_arc. induction d as [|[k' w] d IH]; [intros []|]. cbn [map keys fst snd]. rewrite !coord_cons. intros H.
  destruct (String.eqb_spec k k') as [->|E].
  - destruct (String.eqb_spec k' a); auto.
  - apply IH. destruct H as [H|H]; [cbn in H; congruence|auto].
Qed.
Lemma set_arc_as a v d : (v = 0 \/ v = 1) -> In d AS -> In (set_arc a v d) AS.
Proof.
  intros Hv H. apply as_intro; [rewrite set_arc_keys; apply as_keys; auto|]. intros k Hk.
  rewrite set_arc_coord by (rewrite as_keys; auto). destruct (String.eqb k a); auto. apply as_coord; auto.
Qed.

Lemma in_box_down lo up a x : In lo AS -> In up AS -> In x AS -> In a names -> coord lo a = 0 -> 
  in_box lo (set_arc a 0 up) x = in_box lo up x && (coord x a =? 0).
Proof.
  intros Hl Hu Hx Ha E. apply eq_true_iff_eq. rewrite andb_true_iff, !in_box_spec, Z.eqb_eq by auto. split.
  - intros F. assert (F' : forall k, In k names -> coord lo k <= coord x k <= coord up k).
    { intros k Hk. specialize (F k Hk). rewrite set_arc_coord in F by (rewrite as_keys; auto).
      destruct (String.eqb k a); auto. destruct (as_coord up k Hu Hk); destruct (as_coord x k Hx Hk); lia. }
    split; auto. specialize (F a Ha). rewrite set_arc_coord, String.eqb_refl in F by (rewrite as_keys; auto).
    destruct (as_coord x a Hx Ha); lia.
  - intros [F E0] k Hk. specialize (F k Hk). rewrite set_arc_coord by (rewrite as_keys; auto).
    destruct (String.eqb_spec k a) as [->|]; auto. lia.
Qed.
Lemma in_box_up lo up a x : In lo AS -> In up AS -> In x AS -> In a names -> 
  in_box (set_arc a 1 lo) up x = in_box lo up x && (coord x a =? 1).
Proof.
  intros Hl Hu Hx Ha. apply eq_true_iff_eq. rewrite andb_true_iff, !in_box_spec, Z.eqb_eq by auto. split.
  - intros F. assert (F' : forall k, In k names -> coord lo k <= coord x k <= coord up k).
    { intros k Hk. specialize (F k Hk). rewrite set_arc_coord in F by (rewrite as_keys; auto).
      destruct (String.eqb k a); auto. destruct (as_coord lo k Hl Hk); destruct (as_coord x k Hx Hk); lia. }
    split; auto. specialize (F a Ha). rewrite set_arc_coord, String.eqb_refl in F by (rewrite as_keys; auto).
    destruct (as_coord x a Hx Ha); lia.
  - intros [F E0] k Hk. specialize (F k Hk). rewrite set_arc_coord by (rewrite as_keys; auto).
    destruct (String.eqb_spec k a) as [->|]; auto. lia.
Qed.

Definition covb (b : bool) : nat := if b then 1%nat else 0%nat.
Lemma covered_cons b l x : covered (b :: l) x = (covb (in_bb b x) + covered l x)%nat.
Proof. unfold covered. cbn [filter]. destruct (in_bb b x); auto. Qed.
Lemma covered_app l l' x : covered (l ++ l') x = (covered l x + covered l' x)%nat.
Proof. unfold covered. rewrite filter_app, app_length. auto. Qed.

Context (pti : list path_entry) (Hpti : pti <> []) (Hin : forall e, In e pti -> incl (pe_path e) names).

Lemma eval_as x : In x AS -> eval_sys_state pti x 1 = Ok (ev 1 pti x).
Proof. intros H. apply eval_ok; auto. intros e He. rewrite as_keys; auto. Qed.

(** C43: the loop over the arcs *)
Lemma split_ok up c : In up AS -> forall arcs low, In low AS -> NoDup arcs -> incl arcs names ->
  (forall a, In a arcs -> coord low a = 0 /\ coord up a = 1) ->
  exists l low', split_loop up c pti 1 arcs low = Ok (l, low') /\ In low' AS /\
    (forall k, In k names -> coord low' k = if mem_str k arcs then 1 else coord low k) /\
    (forall x, In x AS -> (covered l x + covb (in_box low' up x) = covb (in_box low up x))%nat) /\
    (forall b, In b l -> exists a, In a arcs /\ In (lower b) AS /\ upper b = set_arc a 0 up /\ fl b = c /\ fu b = ev 1 pti (upper b) /\
       coord (lower b) a = 0 /\
       forall k, In k names -> coord (lower b) k = coord low k \/ (coord low k = 0 /\ In k arcs /\ k <> a /\ coord (lower b) k = 1)).
Proof.
  intros Hu. induction arcs as [|a arcs IH]; intros low Hl N Hi Hv.
  - exists [], low. cbn [split_loop]. split; auto. split; auto. split; auto. split; [|intros b []]. intros x Hx. cbn. lia.
  - inversion N as [|? ? N1 N2]; subst. destruct (Hv a (or_introl eq_refl)) as [V0 V1]. assert (Ha : In a names) by (apply Hi; left; auto).
    destruct (IH (set_arc a 1 low)) as (l & low' & E & L' & C' & Cov & HB); auto.
    + apply set_arc_as; auto.
    + intros k Hk. apply Hi. right; auto.
    + intros k Hk. destruct (Hv k (or_intror Hk)) as [W0 W1]. split; auto.
      rewrite set_arc_coord by (rewrite as_keys; auto; apply Hi; right; auto).
      destruct (String.eqb_spec k a) as [->|]; auto. contradiction.
    + cbn [split_loop]. rewrite eval_as by (apply set_arc_as; auto). cbn [bind]. rewrite E. cbn [bind fst snd].
      eexists _, low'. split; [reflexivity|]. split; auto. split; [|split].
      * intros k Hk. rewrite C' by auto. rewrite set_arc_coord by (rewrite as_keys; auto). cbn [mem_str existsb].
        fold (mem_str k arcs). destruct (mem_str k arcs); [rewrite orb_true_r; auto|]. rewrite orb_false_r. auto.
      * intros x Hx. rewrite covered_cons. unfold in_bb. cbn [lower upper fst snd]. rewrite in_box_down by auto.
        specialize (Cov x Hx). rewrite in_box_up in Cov by auto.
        destruct (as_coord x a Hx Ha) as [Ex|Ex]; rewrite Ex in *; cbn [Z.eqb] in *;
          rewrite ?andb_true_r, ?andb_false_r in *; cbn [covb] in *; lia.
      * intros b [<-|Hb].
        -- exists a. unfold lower, upper, fl, fu. cbn [fst snd]. split; [left; auto|]. repeat (split; [auto|]). auto.
        -- destruct (HB b Hb) as (a' & A1 & A2 & A3 & A4 & A5 & A6 & A7). exists a'. split; [right; auto|]. repeat (split; [auto|]).
           intros k Hk. destruct (A7 k Hk) as [E1|(E1 & E2 & E3 & E4)].
           ++ rewrite set_arc_coord in E1 by (rewrite as_keys; auto). destruct (String.eqb_spec k a) as [->|]; auto.
              right. split; auto. split; [left; auto|]. split; auto. intros ->. contradiction.
           ++ rewrite set_arc_coord in E1 by (rewrite as_keys; auto). destruct (String.eqb_spec k a) as [->|Ek]; [lia|].
              right. split; auto. split; [right; auto|]. auto.
Qed.

(** ** one step, for a proper list of paths *)
Context (PO : paths_ok names pti).

Lemma le_find x y : In x AS -> In y AS -> (forall k, In k names -> coord x k <= coord y k) ->
  forall k, dfind x k = Some 1 -> dfind y k = Some 1.
Proof.
  intros Hx Hy L k E. assert (Hk : In k names). { rewrite <- (as_keys x Hx). eapply In_keys, dfind_In; eauto. }
  rewrite as_find in E by auto. injection E as E. rewrite as_find by auto. specialize (L k Hk). destruct (as_coord y k Hy Hk); f_equal; lia.
Qed.

Lemma ev_cons e0 l x : pe_path e0 = [] ->
  ev 1 (e0 :: l) x = match find (fun e => survb 1 x (pe_path e)) l with Some e => pe_state e | None => pe_state e0 end.
Proof. intros E. unfold ev. cbn [find]. rewrite E. cbn [survb]. auto. Qed.

Lemma find_sorted (f g : path_entry -> bool) l e : StronglySorted (fun a b => pe_state b <= pe_state a) l ->
  In e l -> g e = true ->
  exists e', find g l = Some e' /\ pe_state e <= pe_state e'.
Proof.
  induction l as [|a l IH]; intros S [] G; inversion S as [|? ? S1 S2]; subst; cbn [find].
  - rewrite G. exists e. split; auto. lia.
  - destruct (g a); [|apply IH; auto]. exists a. split; auto. rewrite Forall_forall in S2. apply S2. auto.
Qed.

Lemma ev_ge x e : In e (tl pti) -> survives 1 x (pe_path e) -> pe_state e <= ev 1 pti x.
Proof.
  destruct PO as (e0 & l & E & E0 & _ & S). rewrite E. cbn [tl]. intros He Hs. rewrite ev_cons by auto.
  destruct (find_sorted (fun _ => true) (fun e => survb 1 x (pe_path e)) l e) as (e' & -> & L); auto. apply survb_spec. auto.
Qed.
Lemma ev_low x e : hd_error pti = Some e -> pe_state e <= ev 1 pti x.
Proof.
  destruct PO as (e0 & l & E & E0 & P & _). rewrite E. cbn [hd_error]. intros [= <-]. rewrite ev_cons by auto.
  pose proof (find_first (fun e => survb 1 x (pe_path e)) l) as F. destruct (find _ l) as [e'|]; [|lia].
  destruct F as (pre & post & -> & _). apply P. apply in_or_app. right; left; auto.
Qed.
Lemma ev_cases x : (exists e, In e (tl pti) /\ survives 1 x (pe_path e) /\ ev 1 pti x = pe_state e) \/
  (exists e, hd_error pti = Some e /\ ev 1 pti x = pe_state e).
Proof.
  destruct PO as (e0 & l & E & E0 & P & _). rewrite E. cbn [hd_error tl]. rewrite ev_cons by auto.
  pose proof (find_first (fun e => survb 1 x (pe_path e)) l) as F. destruct (find _ l) as [e'|]; [|right; eauto].
  left. destruct F as (pre & post & -> & F & _). exists e'. split; [apply in_or_app; right; left; auto|]. split; auto. apply survb_spec; auto.
Qed.
Lemma ev_mono x y : In x AS -> In y AS -> (forall k, In k names -> coord x k <= coord y k) -> ev 1 pti x <= ev 1 pti y.
Proof.
  intros Hx Hy L. destruct (ev_cases x) as [(e & He & Hs & ->)|(e & He & ->)].
  - apply ev_ge; auto. eapply survives_more; [apply (le_find x y); auto|auto].
  - apply ev_low; auto.
Qed.

Definition bbok (b : bb) : Prop := In (lower b) AS /\ In (upper b) AS /\
  (forall k, In k names -> coord (lower b) k <= coord (upper b) k) /\ fl b <= ev 1 pti (lower b) /\ fu b = ev 1 pti (upper b).
Lemma bbok_spec b : bbok b <-> bb_ok names pti b.
Proof.
  unfold bbok, bb_ok. split; intros (H1 & H2 & H3 & H4 & H5); (split; [exact H1|]); (split; [exact H2|]); (split; [exact H3|]).
  - split; [exists (ev 1 pti (lower b)); split; auto; apply ev_state; auto|]. rewrite H5. apply ev_state; auto.
  - destruct H4 as (s & S & L). split; [|apply ev_unique; auto]. rewrite <- (ev_unique _ _ _ _ S). auto.
Qed.

Definition arcs_of (b : bb) : list string :=
  match find (fun e => survb 1 (upper b) (pe_path e)) (tl pti) with
  | Some e => filter (fun k => coord (lower b) k <? coord (upper b) k) (pe_path e)
  | None => []
  end.

Lemma arcs_ok b : In (lower b) AS -> In (upper b) AS -> get_arcs_given_bstar b pti 1 = Ok (arcs_of b).
Proof.
  intros Hl Hu. unfold get_arcs_given_bstar, arcs_of. destruct PO as (e0 & l & E & E0 & P & _).
  assert (P' : forall e, In e l -> pe_path e <> [] /\ incl (pe_path e) names) by (intros e He; destruct (P e He) as (? & ? & ? & ?); auto).
  rewrite E. cbn [skipn tl]. clear E P. induction l as [|e l IH]; auto. cbn [arcs_loop find].
  destruct (P' e (or_introl eq_refl)) as [P1 P2].
  assert (M : forallb (fun x => mem_str x (map fst (filter (fun kv => snd kv =? 1) (upper b)))) (pe_path e) = survb 1 (upper b) (pe_path e)).
  { apply eq_true_iff_eq. rewrite survb_spec, forallb_forall. unfold survives. split.
    - intros F. split; auto. intros k Hk. specialize (F k Hk). apply mem_str_In, in_map_iff in F as ((k' & v) & E1 & F). cbn in E1. subst k'.
      apply filter_In in F as [F1 F2]. cbn in F2. assert (v = 1) by lia. subst v. apply In_dfind; auto. rewrite (as_keys _ Hu); auto.
    - intros [_ F] k Hk. apply mem_str_In, in_map_iff. exists (k, 1). split; auto. apply filter_In. split; [apply dfind_In; auto|auto]. }
  rewrite M. destruct (survb 1 (upper b) (pe_path e)); [|apply IH; intros; apply P'; right; auto].
  rewrite (mapM_ok _ (fun k => (k, coord (lower b) k <? coord (upper b) k))).
  - cbn [bind]. f_equal. generalize (pe_path e). intros p. induction p as [|k p IHp]; auto. cbn [map filter snd].
    destruct (coord (lower b) k <? coord (upper b) k); cbn [map fst]; rewrite IHp; auto.
  - intros k Hk. unfold dget. rewrite !as_find by (auto; apply P2; auto). auto.
Qed.

Lemma arcs_of_facts b : In (lower b) AS -> In (upper b) AS -> NoDup (arcs_of b) /\ incl (arcs_of b) names /\
  forall a, In a (arcs_of b) -> coord (lower b) a = 0 /\ coord (upper b) a = 1.
Proof.
  intros Hl Hu. unfold arcs_of. destruct PO as (e0 & l & E & E0 & P & _). rewrite E. cbn [tl].
  pose proof (find_first (fun e => survb 1 (upper b) (pe_path e)) l) as F. destruct (find _ l) as [e|].
  - destruct F as (pre & post & -> & _). destruct (P e) as (P1 & P2 & P3 & _); [apply in_or_app; right; left; auto|].
    split; [apply NoDup_filter; auto|]. split; [intros k Hk; apply filter_In in Hk as [Hk _]; auto|].
    intros a Ha. apply filter_In in Ha as [Ha L]. apply P3 in Ha. destruct (as_coord _ _ Hl Ha), (as_coord _ _ Hu Ha); lia.
  - split; [constructor|]. split; intros a [].
Qed.

Definition undec (b : bb) : list string := filter (fun k => coord (lower b) k <? coord (upper b) k) names.

Lemma upper_same up arcs : In up AS -> (forall a, In a arcs -> coord up a = 1) ->
  map (fun kv : string * Z => (fst kv, if mem_str (fst kv) arcs then 1 else snd kv)) up = up.
Proof.
  intros Hu H. rewrite <- (map_id up) at 2. apply map_ext_in. intros [k v] Hk. cbn [fst snd].
  destruct (mem_str k arcs) eqn:M; auto. apply mem_str_In, H in M. rewrite (coord_In up k v) in M; [congruence| |auto].
  rewrite (as_keys up Hu). auto.
Qed.

Lemma branches_ok b arcs : In (lower b) AS -> In (upper b) AS -> NoDup arcs -> incl arcs names -> (forall a, In a arcs -> coord (lower b) a = 0 /\ coord (upper b) a = 1) ->
  exists l, get_set_of_branches b arcs pti 1 = Ok l /\ (forall x, In x AS -> covered l x = covb (in_bb b x)) /\
    forall b', In b' l -> In (lower b') AS /\ In (upper b') AS.
Proof.
  intros Hl Hu N I V. unfold get_set_of_branches.
  destruct (split_ok (upper b) (fl b) Hu arcs (lower b)) as (l & low' & E & L' & C' & Cov & HB); auto.
  rewrite E. cbn [bind fst snd]. rewrite upper_same; auto; [|intros a Ha; apply V; auto].
  eexists. split; [reflexivity|]. split.
  2:{ intros b' Hb'. apply in_app_or in Hb' as [Hb'|[<-|[]]]; [|auto]. destruct (HB b' Hb') as (a & _ & A2 & -> & _). split; auto. apply set_arc_as; auto. }
  intros x Hx. rewrite covered_app, covered_cons. unfold in_bb at 1. cbn [lower upper fst snd].
  unfold covered at 2. cbn [filter List.length]. specialize (Cov x Hx). unfold in_bb. lia.
Qed.

Lemma step_ok b : bbok b -> exists l, get_set_of_branches b (arcs_of b) pti 1 = Ok l /\
  (forall x, In x AS -> covered l x = covb (in_bb b x)) /\
  (forall b', In b' l -> bbok b' /\ (complete b' = true \/ (List.length (undec b') < List.length (undec b))%nat)).
Proof.
  intros B. pose proof B as (Hl & Hu & Hle & Hfl & Hfu). destruct (arcs_of_facts b Hl Hu) as (N & I & V).
  destruct (branches_ok b (arcs_of b) Hl Hu N I V) as (l0 & E0 & Cov0 & _). exists l0. split; auto. split; auto.
  unfold get_set_of_branches in E0.
  destruct (split_ok (upper b) (fl b) Hu (arcs_of b) (lower b)) as (l & low' & E & L' & C' & Cov & HB); auto.
  rewrite E in E0. cbn [bind fst snd] in E0. rewrite upper_same in E0; auto; [|intros a Ha; apply V; auto].
  injection E0 as <-. intros b' Hb'. apply in_app_or in Hb' as [Hb'|[<-|[]]].
  - destruct (HB b' Hb') as (a & A1 & A2 & A3 & A4 & A5 & A6 & A7). destruct (V a A1) as [V0 V1].
    assert (LE : forall k, In k names -> coord (lower b) k <= coord (lower b') k).
    { intros k Hk. destruct (A7 k Hk) as [->|(-> & _ & _ & ->)]; lia. }
    assert (U' : In (upper b') AS) by (rewrite A3; apply set_arc_as; auto).
    assert (UC : forall k, In k names -> coord (upper b') k = if String.eqb k a then 0 else coord (upper b) k).
    { intros k Hk. rewrite A3. apply set_arc_coord. rewrite as_keys; auto. }
    assert (LE2 : forall k, In k names -> coord (lower b') k <= coord (upper b') k).
    { intros k Hk. rewrite UC by auto. destruct (String.eqb_spec k a) as [->|Ek]; [lia|].
      destruct (A7 k Hk) as [->|(_ & K & _ & ->)]; auto. destruct (V k K) as [_ ->]. lia. }
    split.
    + split; [auto|]. split; [auto|]. split; [auto|]. split; [|auto]. rewrite A4.
      eapply Z.le_trans; [exact Hfl|]. apply ev_mono; auto.
    + right. unfold undec. apply NoDup_incl_length_lt with (a := a).
      * apply NoDup_filter; auto.
      * intros k Hk. apply filter_In in Hk as [Hk L]. apply filter_In. split; auto. specialize (LE k Hk).
        rewrite UC in L by auto. destruct (String.eqb_spec k a) as [->|]; [|lia]. lia.
      * apply filter_In. split; [auto|]. lia.
      * intros X. apply filter_In in X as [_ X]. rewrite UC, String.eqb_refl in X by auto. lia.
  - split; [|left; apply Z.eqb_refl].
    assert (LE2 : forall k, In k names -> coord low' k <= coord (upper b) k).
    { intros k Hk. rewrite C' by auto. destruct (mem_str k (arcs_of b)) eqn:M; auto. apply mem_str_In, V in M. lia. }
    unfold bbok, lower, upper, fl, fu. cbn [fst snd]. fold (upper b). fold (fu b). split; auto. split; auto. split; auto. split; auto.
    rewrite Hfu. unfold arcs_of in C'. destruct PO as (e0 & lp & Ep & E0 & P & S). rewrite Ep in C' |- *. cbn [tl] in C'. rewrite (ev_cons e0 lp (upper b)) by auto.
    pose proof (find_first (fun e => survb 1 (upper b) (pe_path e)) lp) as F. destruct (find _ lp) as [e|].
    + destruct F as (pre & post & El & F & _). rewrite <- Ep. apply ev_ge.
      * rewrite Ep. cbn [tl]. rewrite El. apply in_or_app. right; left; auto.
      * apply survb_spec in F as [F1 F2]. split; auto. intros k Hk.
        assert (Kn : In k names) by (rewrite <- (as_keys _ Hu); eapply In_keys, dfind_In, F2; auto).
        rewrite as_find by auto. f_equal. rewrite C' by auto. specialize (F2 k Hk). rewrite as_find in F2 by auto. injection F2 as F2.
        destruct (mem_str k _) eqn:M; auto. destruct (as_coord _ _ Hl Kn) as [X|X]; auto. exfalso.
        apply Bool.not_true_iff_false in M. apply M, mem_str_In, filter_In. split; auto. lia.
    + rewrite <- Ep. apply ev_low. rewrite Ep. auto.
Qed.

(** ** all steps *)
Lemma dict_eqb_as x y : In x AS -> In y AS -> dict_eqb x y = true -> x = y.
Proof.
  intros Hx Hy E. apply andb_true_iff in E as [_ E]. rewrite forallb_forall in E.
  apply vec_ext; [rewrite as_keys; auto|rewrite !as_keys; auto|]. rewrite as_keys by auto. intros k Hk.
  assert (P : In (k, coord x k) x) by (apply coord_pair; rewrite as_keys; auto). specialize (E _ P). cbn [fst snd] in E.
  rewrite as_find in E by auto. lia.
Qed.
Lemma bb_eqb_ok b b' : bbok b -> bbok b' -> bb_eqb b b' = true -> b = b'.
Proof.
  intros (H1 & H2 & _) (H3 & H4 & _) E. unfold bb_eqb in E. apply andb_true_iff in E as [E E4]. apply andb_true_iff in E as [E E3].
  apply andb_true_iff in E as [E1 E2]. apply dict_eqb_as in E1; auto. apply dict_eqb_as in E2; auto.
  destruct b as [[[lo up] f] g], b' as [[[lo' up'] f'] g']. unfold lower, upper, fl, fu in *. cbn in *. repeat f_equal; auto; lia.
Qed.

Lemma covered_in l b x : In b l -> in_bb b x = true -> (1 <= covered l x)%nat.
Proof.
  induction l as [|a l IH]; intros []; intros E; rewrite covered_cons.
  - subst. rewrite E. cbn. lia.
  - specialize (IH H E). lia.
Qed.
Lemma covered_two l b b' x : In b l -> In b' l -> b <> b' -> in_bb b x = true -> in_bb b' x = true -> (2 <= covered l x)%nat.
Proof.
  induction l as [|a l IH]; intros H H' D E E'; [destruct H|]. rewrite covered_cons. destruct H as [->|H], H' as [->|H'].
  - congruence.
  - rewrite E. pose proof (covered_in l b' x H' E'). cbn. lia.
  - rewrite E'. pose proof (covered_in l b x H E). cbn. lia.
  - specialize (IH H H' D E E'). lia.
Qed.
Lemma covered_exists l x : (1 <= covered l x)%nat -> exists b, In b l /\ in_bb b x = true.
Proof.
  induction l as [|a l IH]; [cbn; lia|]. rewrite covered_cons. destruct (in_bb a x) eqn:E; [exists a; split; [left|]; auto|].
  cbn. intros L. destruct (IH L) as (b & Hb & Eb). exists b. split; [right|]; auto.
Qed.
Lemma covered_split f l x : (covered (filter f l) x + covered (filter (fun b => negb (f b)) l) x = covered l x)%nat.
Proof. induction l as [|a l IH]; auto. cbn [filter]. destruct (f a); cbn [negb]; rewrite !covered_cons; lia. Qed.

Lemma core_ok bstars : (forall b, In b bstars -> bbok b) -> exists rs, bnb_core bstars pti 1 = Ok rs /\
  (forall x, In x AS -> covered (List.concat rs) x = covered bstars x) /\
  (forall b', In b' (List.concat rs) -> bbok b' /\ exists b, In b bstars /\ (forall x, In x AS -> in_bb b' x = true -> in_bb b x = true) /\
     (complete b' = true \/ (List.length (undec b') < List.length (undec b))%nat)).
Proof.
  unfold bnb_core. induction bstars as [|b bs IH]; intros H.
  - exists []. split; auto. split; [auto|intros b' []].
  - destruct IH as (rs & E & Cov & HB); [intros; apply H; right; auto|].
    assert (B : bbok b) by (apply H; left; auto). destruct (step_ok b B) as (l & El & Cl & Bl).
    exists (l :: rs). split; [|split].
    + cbn [mapM]. rewrite (arcs_ok b (proj1 B) (proj1 (proj2 B))). cbn [bind]. rewrite El. cbn [bind]. rewrite E. auto.
    + intros x Hx. cbn [List.concat]. rewrite covered_app, covered_cons. rewrite Cl, Cov; auto.
    + intros b' Hb'. cbn [List.concat] in Hb'. apply in_app_or in Hb' as [Hb'|Hb'].
      * destruct (Bl b' Hb') as [B1 B2]. split; auto. exists b. split; [left; auto|]. split; auto.
        intros x Hx Ex. pose proof (covered_in l b' x Hb' Ex) as L. rewrite Cl in L by auto. destruct (in_bb b x); auto. cbn in L. lia.
      * destruct (HB b' Hb') as (B1 & c & C1 & C2 & C3). split; auto. exists c. split; [right; auto|]. auto.
Qed.

Lemma in_bb_lower b : bbok b -> in_bb b (lower b) = true.
Proof. intros (H1 & H2 & H3 & _). unfold in_bb. apply in_box_spec; auto. intros k Hk. specialize (H3 k Hk). lia. Qed.

Lemma not_old bstars rs : (forall b, In b bstars -> bbok b) -> (forall b, In b bstars -> complete b = false) ->
  (forall x, In x AS -> (covered bstars x <= 1)%nat) ->
  bnb_core bstars pti 1 = Ok rs -> filter (fun x => negb (existsb (bb_eqb x) bstars)) (List.concat rs) = List.concat rs.
Proof.
  intros HB HC H1 E. destruct (core_ok bstars HB) as (rs' & E' & _ & F). rewrite E in E'. injection E' as <-.
  assert (G : forall x, In x (List.concat rs) -> negb (existsb (bb_eqb x) bstars) = true).
  { intros x Hx. destruct (F x Hx) as (Bx & b & Hb & Sub & M). apply negb_true_iff, Bool.not_true_iff_false. intros X.
    apply existsb_exists in X as (c & Hc & Ec). apply bb_eqb_ok in Ec; auto. subst c.
    assert (Cx := HC x Hc). destruct M as [M|M]; [congruence|].
    assert (D : x <> b) by (intros ->; lia). assert (Lx : In (lower x) AS) by apply Bx.
    pose proof (covered_two bstars x b (lower x) Hc Hb D (in_bb_lower x Bx) (Sub _ Lx (in_bb_lower x Bx))). specialize (H1 _ Lx). lia. }
  revert G. generalize (List.concat rs). intros l G. induction l as [|a l IH]; auto. cbn [filter]. rewrite G by (left; auto).
  f_equal. apply IH. intros; apply G; right; auto.
Qed.
End Arcs.

(** the contents written, without the directory *)
Fixpoint bnb_run (fuel : nat) (bstars : list bb) (pti : list path_entry) (c : Z) : res (list (list bb)) :=
  match bstars with
  | [] => Ok []
  | _ =>
      match fuel with
      | O => Err OutOfFuel
      | S fuel' =>
          results <- bnb_core bstars pti c ;;
          let new := filter (fun x => negb (existsb (bb_eqb x) bstars)) (List.concat results) in
          cs <- bnb_run fuel' (filter (fun x => negb (complete x)) new) pti c ;;
          Ok (new :: cs)
      end
  end.
Fixpoint write (key : string) (i : nat) (cs : list (list bb)) (d : dir) : dir :=
  match cs with [] => d | c :: cs' => write key (S i) cs' (dset d (dump_name key i) c) end.

Lemma loop_run pti c key fuel : forall i bstars d,
  bnb_loop fuel i bstars pti c key d = (cs <- bnb_run fuel bstars pti c ;; Ok (write key i cs d)).
Proof.
  induction fuel as [|fuel IH]; intros i [|b bs] d; cbn [bnb_loop bnb_run]; auto.
  destruct (bnb_core (b :: bs) pti c) as [rs|]; auto. cbn [bind]. rewrite IH.
  destruct (bnb_run fuel _ pti c); auto.
Qed.

Lemma run_ok names pti : NoDup names -> paths_ok names pti -> forall fuel bstars,
  (forall b, In b bstars -> bbok names pti b) -> (forall b, In b bstars -> complete b = false) ->
  (forall x, In x (arc_states names) -> (covered bstars x <= 1)%nat) ->
  (forall b, In b bstars -> (List.length (undec names b) < fuel)%nat) ->
  exists cs, bnb_run fuel bstars pti 1 = Ok cs /\
    (forall x, In x (arc_states names) -> covered (flat_map (filter complete) cs) x = covered bstars x) /\
    (forall b, In b (flat_map (filter complete) cs) -> bbok names pti b /\ complete b = true).
Proof.
  intros Nn PO. assert (Hp : pti <> []) by (destruct PO as (? & ? & -> & _); discriminate).
  assert (Hin : forall e, In e pti -> incl (pe_path e) names).
  { destruct PO as (e0 & l & -> & E0 & P & _). intros e [<-|He]; [rewrite E0; intros k []|]. apply P; auto. }
  induction fuel as [|fuel IH]; intros [|b0 bs] HB HC H1 HF.
  - exists []. cbn. split; [auto|]. split; [auto|]. intros b [].
  - exfalso. specialize (HF b0 (or_introl eq_refl)). lia.
  - exists []. cbn. split; [auto|]. split; [auto|]. intros b [].
  - destruct (core_ok names Nn pti Hp Hin PO (b0 :: bs) HB) as (rs & E & Cov & F).
    pose proof (not_old names Nn pti Hp Hin PO (b0 :: bs) rs HB HC H1 E) as NO.
    destruct (IH (filter (fun x => negb (complete x)) (List.concat rs))) as (cs & Ec & Cc & Bc).
    + intros b Hb. apply filter_In in Hb as [Hb _]. apply F; auto.
    + intros b Hb. apply filter_In in Hb as [_ Hb]. apply negb_true_iff; auto.
    + intros x Hx. specialize (Cov x Hx). specialize (H1 x Hx). pose proof (covered_split complete (List.concat rs) x). lia.
    + intros b Hb. apply filter_In in Hb as [Hb Nc]. destruct (F b Hb) as (_ & c & Hc & _ & [M|M]); [rewrite M in Nc; discriminate|].
      specialize (HF c Hc). lia.
    + exists (List.concat rs :: cs). cbn [bnb_run]. rewrite E. cbn [bind]. rewrite NO, Ec. cbn [bind flat_map]. split; auto. split.
      * intros x Hx. rewrite covered_app, Cc by auto. rewrite covered_split. auto.
      * intros b Hb. apply in_app_or in Hb as [Hb|Hb]; auto. apply filter_In in Hb as [Hb Cb]. split; auto. apply F; auto.
Qed.

Lemma saved_state names pti b x : NoDup names -> paths_ok names pti -> bbok names pti b -> complete b = true ->
  In x (arc_states names) -> in_bb b x = true -> sys_state_of 1 pti x (fl b).
Proof.
  intros Nn PO (H1 & H2 & H3 & H4 & H5) C Hx I. assert (Hp : pti <> []) by (destruct PO as (? & ? & -> & _); discriminate).
  assert (Hin : forall e, In e pti -> incl (pe_path e) names).
  { destruct PO as (e0 & l & -> & E0 & P & _). intros e [<-|He]; [rewrite E0; intros k []|]. apply P; auto. }
  unfold in_bb in I. rewrite (in_box_spec names) in I by auto. apply Z.eqb_eq in C.
  pose proof (ev_mono names Nn pti PO (lower b) x H1 Hx (fun k Hk => proj1 (I k Hk))).
  pose proof (ev_mono names Nn pti PO x (upper b) Hx H2 (fun k Hk => proj2 (I k Hk))).
  replace (fl b) with (ev 1 pti x) by lia. apply ev_state; auto.
Qed.
