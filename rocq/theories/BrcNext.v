(** Which end [get_comp_st] returns (continues BrcRun.v). *)
From Coq Require Import ZArith List String Bool QArith Qcanon Lia Permutation Sorting.
From Verif Require Import Py PyFacts Num Vari VariFacts Brc SpecBrc BrcFacts BrcProb BrcDecomp BrcRules BrcRun BrcMisc BrcMain SpecNext.
Import ListNotations.
Open Scope string_scope.
Open Scope Z_scope.
Open Scope list_scope.

(** * The first of the most probable elements *)
Section First.
Context {A : Type} (key : A -> Qc).
Notation gtb := (fun y x => qc_ltb (key x) (key y)).
Lemma insert_find f x : forall S, StronglySorted (fun a b => (key b <= key a)%Qc) S ->
  find f (insert_desc gtb x S) =
  match find f S with
  | Some y => if f x then if qc_ltb (key x) (key y) then Some y else Some x else Some y
  | None => if f x then Some x else None
  end.
Proof.
  induction S as [|z S IH]; intros H; cbn [insert_desc find].
  - auto.
  - inversion_clear H as [|? ? H1 H2]. specialize (IH H1). destruct (qc_ltb (key x) (key z)) eqn:E; cbn [find].
    + rewrite IH. destruct (f z) eqn:Fz; [rewrite E; destruct (f x); auto|]. auto.
    + destruct (f x) eqn:Fx, (f z) eqn:Fz; try rewrite E; auto; [|destruct (find f S); auto].
      destruct (find f S) as [y|] eqn:Fy; auto.
      assert (X : qc_ltb (key x) (key y) = false).
      { apply find_some in Fy as [Fy _]. rewrite Forall_forall in H2. specialize (H2 y Fy). apply not_true_iff_false. intros C. apply qc_ltb_lt in C.
        apply not_true_iff_false in E. apply E. apply qc_ltb_lt. eapply Qclt_le_trans; eauto. }
      rewrite X. auto.
Qed.

Lemma insert_sorted x : forall S, StronglySorted (fun a b => (key b <= key a)%Qc) S -> StronglySorted (fun a b => (key b <= key a)%Qc) (insert_desc gtb x S).
Proof.
  induction S as [|z S IH]; intros H; cbn [insert_desc]; [repeat constructor|]. inversion_clear H as [|? ? H1 H2]. destruct (qc_ltb (key x) (key z)) eqn:E.
  - constructor; auto. rewrite Forall_forall in H2 |- *. intros y Hy. apply (Permutation_in _ (insert_desc_perm _ x S)) in Hy as [<-|Hy]; auto.
    apply Qclt_le_weak. apply qc_ltb_lt. auto.
  - assert (L : (key z <= key x)%Qc) by (apply Qcnot_lt_le; intros C; apply qc_ltb_lt in C; congruence).
    constructor; [constructor; auto|]. constructor; auto. rewrite Forall_forall in H2 |- *. intros y Hy. eapply Qcle_trans; [apply H2; auto|auto].
Qed.
Lemma sort_sorted_key l : StronglySorted (fun a b => (key b <= key a)%Qc) (sort_desc gtb l).
Proof. induction l as [|x l IH]; cbn; [constructor|apply insert_sorted; auto]. Qed.

Lemma find_sort f l : match find f (sort_desc gtb l) with
  | Some x => first_max key f l x
  | None => forall x, In x l -> f x = false
  end.
Proof.
  induction l as [|x l IH]; cbn [sort_desc fold_right]; [intros x []|]. change (fold_right (insert_desc gtb) [] l) with (sort_desc gtb l).
  rewrite insert_find by apply sort_sorted_key. destruct (find f (sort_desc gtb l)) as [y|].
  - destruct IH as (l1 & l2 & El & Fy & H1 & H2). destruct (f x) eqn:Fx; [destruct (qc_ltb (key x) (key y)) eqn:E|].
    + exists (x :: l1), l2. rewrite El. split; auto. split; auto. split; auto. intros z [<-|Hz] Fz; auto. apply qc_ltb_lt. auto.
    + assert (L : (key y <= key x)%Qc) by (apply Qcnot_lt_le; intros C; apply qc_ltb_lt in C; congruence).
      exists [], l. split; auto. split; auto. split; [intros z []|]. intros z Hz Fz. rewrite El in Hz. apply in_app_iff in Hz as [Hz|[<-|Hz]]; auto.
      * eapply Qcle_trans; [apply Qclt_le_weak, H1; auto|auto].
      * eapply Qcle_trans; [apply H2; auto|auto].
    + exists (x :: l1), l2. rewrite El. split; auto. split; auto. split; auto. intros z [<-|Hz] Fz; auto. congruence.
  - destruct (f x) eqn:Fx.
    + exists [], l. split; auto. split; auto. split; [intros z []|]. intros z Hz Fz. rewrite IH in Fz by auto. congruence.
    + intros z [<-|Hz]; auto.
Qed.

Definition top (l : list A) : option A := find (fun _ => true) (sort_desc gtb l).
Lemma top_cons x l : top (x :: l) = match top l with Some y => if qc_ltb (key x) (key y) then Some y else Some x | None => Some x end.
Proof. unfold top. cbn [sort_desc fold_right]. rewrite insert_find by apply sort_sorted_key. auto. Qed.
Lemma top_twice x l : top (x :: x :: l) = top (x :: l).
Proof.
  assert (X : qc_ltb (key x) (key x) = false) by (apply qc_ltb_ge; apply Qcle_refl).
  rewrite (top_cons x (x :: l)), (top_cons x l). destruct (top l) as [y|]; [|rewrite X; auto]. destruct (qc_ltb (key x) (key y)) eqn:E; [rewrite E|rewrite X]; auto.
Qed.
Lemma top_app l l1 l2 : top l1 = top l2 -> top (l ++ l1) = top (l ++ l2).
Proof. intros E. induction l as [|x l IH]; auto. cbn [app]. rewrite !top_cons, IH. auto. Qed.
Lemma top_repeat x n l : top (repeat x (S n) ++ l) = top (x :: l).
Proof. induction n as [|n IH]; auto. change (top (x :: repeat x (S n) ++ l) = top (x :: l)). change (repeat x (S n)) with (x :: repeat x n) in *. cbn [app] in *. rewrite top_twice. auto. Qed.
Lemma top_reps {B} (E : B -> A) (rs : list (B * nat)) :
  top (flat_map (fun bn => repeat (E (fst bn)) (S (snd bn))) rs) = top (map E (map fst rs)).
Proof.
  induction rs as [|[b n] rs IH]; auto. cbn [flat_map map fst snd]. rewrite top_repeat. apply (top_app [E b]). auto.
Qed.
Lemma top_max l : match top l with Some x => first_max key (fun _ => true) l x | None => l = [] end.
Proof.
  unfold top. pose proof (find_sort (fun _ => true) l) as H. destruct (find _ _); auto. destruct l as [|x l]; auto. specialize (H x (or_introl eq_refl)). discriminate.
Qed.
Lemma top_hd l : top l = hd_error (sort_desc gtb l).
Proof. unfold top. destruct (sort_desc gtb l); auto. Qed.
End First.

Lemma first_max_map {A B} (key : A -> Qc) (E : B -> A) us x : first_max key (fun _ => true) (map E us) x ->
  exists b, x = E b /\ first_max (fun b => key (E b)) (fun _ => true) us b.
Proof.
  intros (l1 & l2 & El & _ & H1 & H2). revert l1 El H1. induction us as [|u us IH]; intros l1 El H1; [destruct l1; discriminate|].
  destruct l1 as [|a l1]; cbn [map app] in El; injection El as Ea El.
  - subst x. exists u. split; auto. exists [], us. split; auto. split; auto. split; [intros y []|]. intros y Hy _. apply H2; auto. rewrite <- El. apply in_map. auto.
  - destruct (IH l1 El) as (b & Eb & m1 & m2 & Em & _ & G1 & G2); [intros y Hy; apply H1; right; auto|]. exists b. split; auto.
    exists (u :: m1), m2. rewrite Em. split; auto. split; auto. split; auto. intros y [<-|Hy] _; auto. rewrite Ea, <- Eb. apply H1; auto. left; auto.
Qed.
Lemma first_max_filter {B} (key : B -> Qc) f us b : first_max key (fun _ => true) (filter f us) b -> first_max key f us b.
Proof.
  intros (l1 & l2 & El & _ & H1 & H2).
  assert (G : exists m1 m2, us = m1 ++ b :: m2 /\ filter f m1 = l1 /\ filter f m2 = l2 /\ f b = true).
  { clear H1 H2. revert l1 El. induction us as [|u us IH]; intros l1 El; cbn [filter] in El; [destruct l1; discriminate|].
    destruct (f u) eqn:Fu.
    - destruct l1 as [|a l1]; cbn [app] in El; injection El as Ea El.
      + subst u. exists [], us. auto.
      + subst a. destruct (IH l1 El) as (m1 & m2 & E & E1 & E2 & Fb). exists (u :: m1), m2. rewrite E. cbn [app filter]. rewrite Fu, E1. auto.
    - destruct (IH l1 El) as (m1 & m2 & E & E1 & E2 & Fb). exists (u :: m1), m2. rewrite E. cbn [app filter]. rewrite Fu, E1. auto. }
  destruct G as (m1 & m2 & E & E1 & E2 & Fb). exists m1, m2. split; auto. split; auto. split; intros y Hy Fy; [apply H1|apply H2]; auto; [rewrite <- E1|rewrite <- E2]; apply filter_In; auto.
Qed.

(** * surv_first=True *)
Lemma next_surv brs varis probs :
  (exists b, first_max b_p unknown_up brs b /\ get_comp_st brs true varis probs = Ok (Some (b_up b))) \/
  (forall b, In b brs -> unknown_up b = false) /\
    ((exists b, first_max b_p unknown_down brs b /\ get_comp_st brs true varis probs = Ok (Some (b_down b))) \/
     (forall b, In b brs -> unknown_down b = false) /\ get_comp_st brs true varis probs = Ok None).
Proof.
  unfold get_comp_st. pose proof (find_sort b_p unknown_up brs) as H1. pose proof (find_sort b_p unknown_down brs) as H2.
  assert (F1 : forall l, find (fun br => st_eqb (b_up_state br) U_) l = find unknown_up l) by reflexivity.
  assert (F2 : forall l, find (fun br => st_eqb (b_down_state br) U_) l = find unknown_down l) by reflexivity.
  rewrite F1, F2. change br_gtb with (fun y x => qc_ltb (b_p x) (b_p y)).
  destruct (find unknown_up _) as [b|]; [left; eauto|right]. split; auto.
  destruct (find unknown_down _) as [b|]; [left; eauto|right]. auto.
Qed.

(** * surv_first=False *)
Section Fail.
Context (varis : dict variable) (probs : prob_dict) (Hw : wf_varis varis) (Hp : wf_probs varis probs).
Definition end_of (b : branch) : branch := mkBr (b_up b) (best_of varis) U_ S_ (above varis probs (b_up b)).

Lemma above_ok x : In x (sp varis) -> approx_prob_by_comps x (best_of varis) probs = Ok (above varis probs x).
Proof.
  intros Hx. assert (W : wf_br varis (mkBr x (best_of varis) U_ S_ 0%Qc)).
  { split; [auto|]. split; [apply (best_sp varis Hw)|]. intros k Hk. cbn [b_down b_up]. destruct (varis_find varis k Hk) as (v & Hv & _).
    rewrite (best_coord varis Hw k v Hv). pose proof (sp_coord varis Hw x k v Hx Hv). lia. }
  pose proof (approx_prob_ok varis probs Hw Hp _ W) as E. cbn [b_down b_up] in E. rewrite E. apply (f_equal Ok). apply prob_event_ext.
  intros y Hy. unfold in_branch. cbn [b_down b_up]. pose proof (sp_keys varis y Hy) as Ky. pose proof (sp_nodup varis Hw y Hy) as Ny.
  assert (G : forall kv, In kv y -> snd kv <=? coord (best_of varis) (fst kv) = true).
  { intros [k z] Hin. cbn [fst snd]. assert (Hk : In k (keys varis)) by (rewrite <- Ky; eapply In_keys; eauto). destruct (varis_find varis k Hk) as (v & Hv & _).
    rewrite (best_coord varis Hw k v Hv). pose proof (sp_coord varis Hw y k v Hy Hv) as R. rewrite (coord_In y k z) in R by auto. apply Z.leb_le. lia. }
  clear - G. induction y as [|kv y IH]; auto. cbn [forallb]. rewrite (G kv) by (left; auto). rewrite andb_true_r, IH; auto. intros q Hq. apply G. right; auto.
Qed.

Lemma ends_ok : forall brs, Forall (fun b => wf_br varis b) brs -> forall last acc,
  match last with Some _ => True | None => ~ stuck brs end ->
  exists n rs, map fst rs = filter unknown_up brs /\ (last = None -> n = O) /\
    (last <> None -> n = O -> rs = [] -> forall b, In b brs -> unknown_down b = false) /\
    unknown_ends (worst_of varis) (best_of varis) probs brs last acc =
      Ok (acc ++ match last with Some b => repeat b n | None => [] end ++ flat_map (fun bn => repeat (end_of (fst bn)) (S (snd bn))) rs).
Proof.
  induction brs as [|b brs IH]; intros W last acc Hl.
  - exists O, []. split; auto. split; auto. split; [intros _ _ _ b []|]. cbn [unknown_ends flat_map]. destruct last; cbn [repeat app]; rewrite app_nil_r; auto.
  - inversion_clear W as [|? ? (Wd & Wu & Wl) W']. specialize (IH W').
    assert (Hle : forall x, In x (sp varis) -> le_vec varis (worst_of varis) x).
    { intros y Hy k Hk; destruct (varis_find varis k Hk) as (v & Hv & _); pose proof (sp_coord varis Hw y k v Hy Hv).
      rewrite (worst_coord varis Hw k v Hv). lia. }
    assert (Hlen : forall x y, In x (sp varis) -> In y (sp varis) -> (List.length x =? List.length y)%nat = true).
    { intros y z Hy Hz. apply Nat.eqb_eq. rewrite <- !(map_length fst).
      change (List.length (keys y) = List.length (keys z)). rewrite !(sp_keys varis) by auto. auto. }
    assert (Hd := worst_sp varis Hw). assert (Hu := best_sp varis Hw).
    destruct (approx_ok varis probs Hw Hp (worst_of varis) (b_down b)) as (q2 & Eq2); auto.
    cbn [unknown_ends filter]. rewrite (above_ok (b_up b)) by auto. rewrite Eq2. cbn [bind]. unfold mk_branch. rewrite !Hlen by auto. cbn [bind].
    change (mkBr (b_up b) (best_of varis) U_ S_ (above varis probs (b_up b))) with (end_of b).
    destruct (unknown_up b) eqn:Eu; unfold unknown_up in Eu.
    + replace (st_eqb (b_up_state b) U_) with true by (destruct (b_up_state b); auto; discriminate). cbn [bind].
      destruct (unknown_down b) eqn:Ed.
      * replace (st_eqb (b_down_state b) U_) with true by (unfold unknown_down in Ed; destruct (b_down_state b); auto; discriminate). cbn [bind].
        destruct (IH (Some (end_of b)) ((acc ++ [end_of b]) ++ [end_of b]) I) as (n & rs & E1 & E2 & E3 & E4). rewrite E4.
        exists O, ((b, S n) :: rs). cbn [map fst]. rewrite E1. split; auto. split; auto. split; [discriminate|]. apply (f_equal Ok). rewrite <- !app_assoc. apply (f_equal (app acc)).
        cbn [flat_map fst snd]. destruct last; auto.
      * replace (st_eqb (b_down_state b) U_) with false by (unfold unknown_down in Ed; destruct (b_down_state b); auto; discriminate). cbn [bind].
        destruct (IH (Some (end_of b)) (acc ++ [end_of b]) I) as (n & rs & E1 & E2 & E3 & E4). rewrite E4.
        exists O, ((b, n) :: rs). cbn [map fst]. rewrite E1. split; auto. split; auto. split; [discriminate|]. apply (f_equal Ok). rewrite <- !app_assoc. apply (f_equal (app acc)).
        cbn [flat_map fst snd]. destruct last; auto.
    + replace (st_eqb (b_up_state b) U_) with false by (destruct (b_up_state b); auto; discriminate). cbn [bind].
      destruct (unknown_down b) eqn:Ed.
      * replace (st_eqb (b_down_state b) U_) with true by (unfold unknown_down in Ed; destruct (b_down_state b); auto; discriminate). cbn [bind].
        destruct last as [c|]; cbn [bind].
        -- destruct (IH (Some c) (acc ++ [c]) I) as (n & rs & E1 & E2 & E3 & E4). rewrite E4. exists (S n), rs. split; auto. split; [discriminate|]. split; [discriminate|].
           apply (f_equal Ok). rewrite <- app_assoc. auto.
        -- exfalso. apply Hl. exists [], b, brs. split; auto. split; [intros a []|]. auto.
      * replace (st_eqb (b_down_state b) U_) with false by (unfold unknown_down in Ed; destruct (b_down_state b); auto; discriminate). cbn [bind].
        destruct (IH last acc) as (n & rs & E1 & E2 & E3 & E4).
        { destruct last; auto. intros (l1 & b' & l2 & El & H1 & H2). apply Hl. exists (b :: l1), b', l2. rewrite El. split; auto. split; auto. intros a [<-|Ha]; auto. }
        exists n, rs. split; auto. split; auto. split; [|auto]. intros X1 X2 X3 a [<-|Ha]; auto.
Qed.

Lemma ends_stuck brs : Forall (fun b => wf_br varis b) brs -> stuck brs -> forall acc,
  unknown_ends (worst_of varis) (best_of varis) probs brs None acc = Err UnboundLocalError.
Proof.
  intros W (l1 & b & l2 & El & H1 & H2 & H3). subst brs. revert W. induction l1 as [|a l1 IH]; intros W acc; inversion_clear W as [|? ? (Wd & Wu & Wl) W']; cbn [app unknown_ends].
  - assert (Hle : le_vec varis (worst_of varis) (b_down b)).
    { intros k Hk; destruct (varis_find varis k Hk) as (v & Hv & _); pose proof (sp_coord varis Hw _ k v Wd Hv).
      rewrite (worst_coord varis Hw k v Hv). lia. }
    assert (Hd := worst_sp varis Hw). destruct (approx_ok varis probs Hw Hp (worst_of varis) (b_down b)) as (q2 & Eq2); auto. rewrite Eq2.
    unfold unknown_up in H2. unfold unknown_down in H3. replace (st_eqb (b_up_state b) U_) with false by (destruct (b_up_state b); auto; discriminate).
    replace (st_eqb (b_down_state b) U_) with true by (destruct (b_down_state b); auto; discriminate). cbn [bind]. unfold mk_branch.
    replace (List.length (worst_of varis) =? List.length (b_down b))%nat with true; [auto|]. symmetry. apply Nat.eqb_eq. rewrite <- !(map_length fst).
    change (List.length (keys (worst_of varis)) = List.length (keys (b_down b))). rewrite !(sp_keys varis) by auto. auto.
  - destruct (H1 a (or_introl eq_refl)) as [A1 A2]. unfold unknown_up in A1. unfold unknown_down in A2.
    replace (st_eqb (b_up_state a) U_) with false by (destruct (b_up_state a); auto; discriminate).
    replace (st_eqb (b_down_state a) U_) with false by (destruct (b_down_state a); auto; discriminate). cbn [bind]. apply IH; auto. intros c Hc. apply H1. right; auto.
Qed.

(** either the run stops there, or everything is known, or the first of the upper ends with the most probable better states is returned *)
Lemma next_fail brs : Forall (fun b => wf_br varis b) brs ->
  (stuck brs /\ get_comp_st brs false varis probs = Err UnboundLocalError) \/
  (~ stuck brs /\ exists b, first_max (fun b => above varis probs (b_up b)) unknown_up brs b /\ get_comp_st brs false varis probs = Ok (Some (b_up b))) \/
  ((forall b, In b brs -> unknown_up b = false /\ unknown_down b = false) /\ get_comp_st brs false varis probs = Ok None).
Proof.
  intros W. assert (D : stuck brs \/ ~ stuck brs).
  { clear W. induction brs as [|b brs IH]; [right; intros (l1 & b & l2 & E & _); destruct l1; discriminate|].
    destruct (unknown_up b) eqn:Eu.
    - right. intros (l1 & c & l2 & E & H1 & H2 & H3). destruct l1 as [|a l1]; cbn [app] in E; injection E as Ea E; subst; [congruence|]. destruct (H1 a (or_introl eq_refl)); congruence.
    - destruct (unknown_down b) eqn:Ed.
      + left. exists [], b, brs. split; auto. split; [intros a []|]. auto.
      + destruct IH as [IH|IH].
        * left. destruct IH as (l1 & c & l2 & E & H1 & H2). exists (b :: l1), c, l2. rewrite E. split; auto. split; auto. intros a [<-|Ha]; auto.
        * right. intros (l1 & c & l2 & E & H1 & H2 & H3). destruct l1 as [|a l1]; cbn [app] in E; injection E as Ea E; subst; [congruence|]. apply IH. exists l1, c, l2.
          split; auto. split; auto. intros a' Ha. apply H1. right; auto. }
  destruct D as [D|D].
  - left. split; auto. unfold get_comp_st. rewrite (ends_stuck brs W D). auto.
  - right. destruct (ends_ok brs W None [] D) as (n & rs & E1 & _ & _ & E4). unfold get_comp_st. rewrite E4. cbn [bind app].
    set (L := flat_map _ rs). pose proof (top_reps b_p end_of rs) as T. fold L in T. rewrite E1 in T. pose proof (top_max b_p (map end_of (filter unknown_up brs))) as M. rewrite <- T in M.
    rewrite top_hd in M. change br_gtb with (fun y x => qc_ltb (b_p x) (b_p y)). destruct (sort_desc _ L) as [|x r]; cbn [hd_error] in M.
    + right. split; auto. assert (Z : filter unknown_up brs = []) by (destruct (filter unknown_up brs); auto; discriminate).
      assert (Zu : forall b, In b brs -> unknown_up b = false).
      { intros b Hb. destruct (unknown_up b) eqn:E; auto. assert (X : In b (filter unknown_up brs)) by (apply filter_In; auto). rewrite Z in X. destruct X. }
      intros b Hb. split; auto. destruct (unknown_down b) eqn:E; auto. exfalso.
      clear - D Zu Hb E. induction brs as [|a brs IH]; [destruct Hb|]. destruct (unknown_down a) eqn:Ea.
      * apply D. exists [], a, brs. split; auto. split; [intros c []|]. split; auto. apply Zu. left; auto.
      * destruct Hb as [<-|Hb]; [congruence|]. apply IH; auto; [|intros c Hc; apply Zu; right; auto].
        intros (l1 & c & l2 & E' & H1 & H2). apply D. exists (a :: l1), c, l2. rewrite E'. split; auto. split; auto. intros d [<-|Hd]; auto. split; auto. apply Zu. left; auto.
    + left. split; auto. apply first_max_map in M as (b & -> & M). exists b. split; [apply first_max_filter; exact M|]. auto.
Qed.
End Fail.

