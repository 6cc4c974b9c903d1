(** The path list of an OD: lemmas. *)
From Coq Require Import ZArith List String Bool Arith QArith Qcanon Lqa Lia Permutation Sorting.
From Verif Require Import Py PyFacts Num Vari VariFacts Brc SpecBrc BrcFacts Model Bnb SpecBnb BnbFacts PathModel.
Import ListNotations.
Open Scope string_scope.
Open Scope Z_scope.
Open Scope list_scope.

Lemma insert_sorted {A} (g : A -> A -> bool) (R : A -> A -> Prop) x l :
  (forall a b, g b a = true -> R b a) -> (forall a b, g b a = false -> R a b) -> (forall a b c, R a b -> R b c -> R a c) ->
  StronglySorted R l -> StronglySorted R (insert_desc g x l).
Proof.
  intros G1 G2 T. induction 1 as [|y l Hl IH Hy]; cbn [insert_desc]; [repeat constructor|]. destruct (g y x) eqn:E.
  - constructor; auto. apply Forall_forall. intros z Hz. apply (Permutation_in _ (insert_desc_perm _ x l)) in Hz.
    destruct Hz as [<-|Hz]; [auto|]. rewrite Forall_forall in Hy. auto.
  - constructor; [constructor; auto|]. constructor; auto. eapply Forall_impl; [|exact Hy]. cbn. intros z Hz. eauto.
Qed.
Lemma sort_sorted {A} (g : A -> A -> bool) (R : A -> A -> Prop) l :
  (forall a b, g b a = true -> R b a) -> (forall a b, g b a = false -> R a b) -> (forall a b c, R a b -> R b c -> R a c) ->
  StronglySorted R (sort_desc g l).
Proof. intros G1 G2 T. unfold sort_desc. induction l as [|x l IH]; [constructor|]. cbn [fold_right]. apply insert_sorted; auto. Qed.

(** ** close values *)
Definition closeb (t y : value) : bool := match isclose t y with Ok b => b | Err _ => false end.
Definition plain (y : value) : Prop := match y with VStr _ => False | _ => True end.

Lemma close_idx_ok t vals : plain t -> Forall plain vals -> forall i,
  exists l, close_idx i t vals = Ok l /\ hd_error l = option_map (fun n => i + Z.of_nat n) (find_idx (closeb t) vals).
Proof.
  intros Pt. induction 1 as [|y vals Py _ IH]; intros i; cbn [close_idx find_idx]; [exists []; auto|].
  assert (E : isclose t y = Ok (closeb t y)) by (destruct t, y; cbn in *; tauto || auto).
  rewrite E. cbn [bind]. destruct (IH (i + 1)) as (l & -> & H). cbn [bind]. destruct (closeb t y).
  - exists (i :: l). cbn. split; auto. f_equal. lia.
  - exists l. split; auto. rewrite H. destruct (find_idx (closeb t) vals); cbn; auto. f_equal. lia.
Qed.

Definition entry (vals : list value) (x : list string * value) : list path_entry :=
  match find_idx (closeb (snd x)) vals with Some n => [(fst x, snd x, Z.of_nat n)] | None => [] end.
Lemma path_idx_ok vals pt : Forall plain vals -> (forall x, In x pt -> plain (snd x)) -> path_idx vals pt = Ok (flat_map (entry vals) pt).
Proof.
  intros Pv. induction pt as [|x pt IH]; intros H; auto. cbn [path_idx flat_map].
  destruct (close_idx_ok (snd x) vals (H x (or_introl eq_refl)) Pv 0) as (l & -> & E). cbn [bind].
  rewrite IH by (intros; apply H; right; auto). cbn [bind]. 
  assert (X : entry vals x = match find_idx (closeb (snd x)) vals with Some n => [(fst x, snd x, Z.of_nat n)] | None => [] end) by reflexivity.
  rewrite X. destruct (find_idx (closeb (snd x)) vals) as [n|]; destruct l as [|i l]; cbn in E; try discriminate.
  - injection E as ->. reflexivity.
  - reflexivity.
Qed.

Definition times (pt : od_paths) : list Qc := sort_desc (fun y x => qc_ltb x y) (map snd pt).
Lemma od_values_eq pt : od_values pt = VInf :: map VNum (times pt).
Proof. auto. Qed.
Lemma times_In pt t : In t (times pt) <-> exists p, In (p, t) pt.
Proof.
  unfold times. split.
  - intros H. apply (Permutation_in _ (sort_desc_perm _ _)) in H. apply in_map_iff in H as ([p t'] & <- & H). eauto.
  - intros (p & H). apply (Permutation_in _ (Permutation_sym (sort_desc_perm _ _))). apply in_map_iff. exists (p, t). auto.
Qed.
Lemma times_sorted pt : StronglySorted (fun a b => b <= a)%Qc (times pt).
Proof.
  apply sort_sorted.
  - intros a b H. apply qc_ltb_lt in H. qc_lra.
  - intros a b H. apply qc_ltb_ge in H. auto.
  - intros a b c H1 H2. qc_lra.
Qed.
Lemma od_plain pt : Forall plain (od_values pt).
Proof. rewrite od_values_eq. constructor; [cbn; auto|]. apply Forall_forall. intros v Hv. apply in_map_iff in Hv as (t & <- & _). cbn. auto. Qed.

Lemma close_refl t : closeb (VNum t) (VNum t) = true.
Proof.
  unfold closeb, isclose. apply qc_leb_le. assert (E : (t - t = 0)%Qc) by ring. rewrite E. unfold qabs at 1.
  assert (X : qc_leb 0 0 = true) by (apply qc_leb_le; qc_lra). rewrite X.
  assert (A : (0 <= qabs t)%Qc).
  { unfold qabs. destruct (qc_leb 0 t) eqn:B; [apply qc_leb_le; auto|]. apply qc_leb_gt in B. qc_lra. }
  assert (P1 : (0 <= Q2Qc (1 # 100000000))%Qc) by (vm_compute; congruence).
  assert (P2 : (0 <= Q2Qc (1 # 100000) * qabs t)%Qc) by (apply qcmult_nonneg; [vm_compute; congruence|auto]).
  qc_lra.
Qed.

(** the state of a time: the number of the first close value *)
Definition code (pt : od_paths) (t : Qc) : Z :=
  match find_idx (closeb (VNum t)) (od_values pt) with Some n => Z.of_nat n | None => 0 end.

Lemma code_spec pt p t : In (p, t) pt -> exists n v, find_idx (closeb (VNum t)) (od_values pt) = Some n /\ code pt t = Z.of_nat n /\ (1 <= n)%nat /\
  nth_error (od_values pt) n = Some (VNum v) /\ In v (times pt) /\ closeb (VNum t) (VNum v) = true /\ (n < List.length (od_values pt))%nat.
Proof.
  intros H. assert (Ht : In t (times pt)) by (apply times_In; eauto).
  destruct (find_idx_in (closeb (VNum t)) (od_values pt) (VNum t)) as (n & E).
  - rewrite od_values_eq. right. apply in_map. auto.
  - apply close_refl.
  - unfold code. rewrite E. destruct (find_idx_some _ _ _ E) as (y & Y1 & Y2 & _).
    rewrite od_values_eq in Y1. destruct n as [|n]; [injection Y1 as <-; discriminate Y2|]. cbn [nth_error] in Y1.
    pose proof (nth_error_In _ _ Y1) as YI. apply in_map_iff in YI as (v & <- & Hv).
    exists (S n), v. split; auto. split; auto. split; [lia|]. split; [exact Y1|]. split; auto. split; auto.
    apply nth_error_Some. rewrite od_values_eq. cbn [nth_error]. congruence.
Qed.

Definition od_entry (pt : od_paths) (x : list string * Qc) : path_entry := (fst x, VNum (snd x), code pt (snd x)).
Definition od_list (pt : od_paths) : list path_entry :=
  ([], VInf, 0) :: sort_desc (fun y x => pe_state x <? pe_state y) (map (od_entry pt) pt).

Lemma od_idx_ok name pt : od_idx name pt = Ok (od_list pt).
Proof.
  unfold od_idx, get_path_time_idx, od_var. cbn [mk_variable v_values].
  rewrite path_idx_ok; [|apply od_plain|].
  2:{ intros x Hx. apply in_map_iff in Hx as (y & <- & _). cbn. auto. }
  cbn [bind].
  assert (E : existsb (fun x : list string * value => is_inf (snd x)) (map (fun x => (fst x, VNum (snd x))) pt) = false).
  { apply not_true_iff_false. intros X. apply existsb_exists in X as (y & Hy & I). apply in_map_iff in Hy as (z & <- & _). discriminate I. }
  rewrite E. unfold od_list. do 3 f_equal.
  assert (G : forall l, incl l pt -> flat_map (entry (od_values pt)) (map (fun x => (fst x, VNum (snd x))) l) = map (od_entry pt) l).
  { induction l as [|[p t] l IH]; intros I; auto. cbn [map flat_map]. rewrite IH by (intros y Hy; apply I; right; auto).
    destruct (code_spec pt p t) as (n & v & E1 & E2 & _); [apply I; left; auto|]. unfold entry, od_entry. cbn [fst snd]. rewrite E1, E2. auto. }
  apply G. intros x Hx; auto.
Qed.

Lemma od_tail_In pt e : In e (tl (od_list pt)) <-> exists p t, In (p, t) pt /\ e = (p, VNum t, code pt t).
Proof.
  unfold od_list. cbn [tl]. split.
  - intros H. apply (Permutation_in _ (sort_desc_perm _ _)) in H. apply in_map_iff in H as ([p t] & <- & H). exists p, t. auto.
  - intros (p & t & H & ->). apply (Permutation_in _ (Permutation_sym (sort_desc_perm _ _))). apply in_map_iff. exists (p, t). auto.
Qed.

Lemma od_paths_ok edges pt : (forall p t, In (p, t) pt -> p <> [] /\ NoDup p /\ incl p edges) -> paths_ok edges (od_list pt).
Proof.
  intros H. exists ([], VInf, 0), (tl (od_list pt)). split; [reflexivity|]. split; auto. split.
  - intros e He. apply od_tail_In in He as (p & t & Hin & ->). destruct (H p t Hin) as (H1 & H2 & H3).
    unfold pe_path, pe_state. cbn [fst snd]. split; auto. split; auto. split; auto.
    destruct (code_spec pt p t Hin) as (n & v & _ & -> & _). lia.
  - unfold od_list. cbn [tl]. apply sort_sorted.
    + intros a b E. lia.
    + intros a b E. lia.
    + intros a b c E1 E2. lia.
Qed.

(** ** states follow the times *)
Lemma qabs_nonneg x : (0 <= qabs x)%Qc.
Proof. unfold qabs. destruct (qc_leb 0 x) eqn:E; [apply qc_leb_le; auto|]. apply qc_leb_gt in E. qc_lra. Qed.
Lemma qabs_ge x : (x <= qabs x /\ - x <= qabs x)%Qc.
Proof. unfold qabs. destruct (qc_leb 0 x) eqn:E; [apply qc_leb_le in E|apply qc_leb_gt in E]; split; qc_lra. Qed.

Lemma nth_sorted pt i j u v : (i <= j)%nat -> nth_error (times pt) i = Some u -> nth_error (times pt) j = Some v -> (v <= u)%Qc.
Proof.
  generalize (times_sorted pt). generalize (times pt) as l. intros l S. revert i j. induction S as [|x l S IH F]; intros i j L Hi Hj; [destruct i; discriminate|].
  destruct i as [|i], j as [|j]; cbn in Hi, Hj; [| |lia|].
  - injection Hi as <-. injection Hj as <-. qc_lra.
  - injection Hi as <-. rewrite Forall_forall in F. apply F. eapply nth_error_In; eauto.
  - apply (IH i j); auto. lia.
Qed.

Lemma code_mono pt p t p' u : In (p, t) pt -> In (p', u) pt -> (t <= u)%Qc -> code pt u <= code pt t.
Proof.
  intros Ht Hu L. destruct (code_spec pt p t Ht) as (n & v & E1 & -> & N1 & V1 & T1 & C1 & _).
  destruct (code_spec pt p' u Hu) as (m & w & E2 & -> & M1 & W1 & T2 & C2 & _).
  destruct (Nat.le_gt_cases m n) as [G|G]; [lia|]. exfalso.
  (* u itself stands at a position not before m, so after n *)
  assert (Pu : exists k, nth_error (od_values pt) k = Some (VNum u)).
  { apply In_nth_error. rewrite od_values_eq. right. apply in_map, times_In. eauto. }
  destruct Pu as (k & Ek). destruct (find_idx_some _ _ _ E2) as (y & Y1 & Y2 & Y3).
  assert (K : (m <= k)%nat).
  { destruct (Nat.le_gt_cases m k); auto. exfalso. specialize (Y3 k (VNum u) H Ek). rewrite close_refl in Y3. discriminate. }
  destruct n as [|n]; [lia|]. destruct k as [|k]; [lia|]. rewrite od_values_eq in V1, Ek. cbn [nth_error] in V1, Ek.
  rewrite nth_error_map in V1, Ek. destruct (nth_error (times pt) n) as [v'|] eqn:Nv; [|discriminate]. cbn in V1.
  destruct (nth_error (times pt) k) as [u'|] eqn:Nu; [|discriminate]. cbn in Ek.
  assert (v' = v) by congruence. assert (u' = u) by congruence. subst v' u'.
  assert (UV : (u <= v)%Qc) by (apply (nth_sorted pt n k); auto; lia).
  (* t <= u <= v and t is close to v, so u is *)
  assert (Cu : closeb (VNum u) (VNum v) = false).
  { apply (Y3 (S n)); [lia|]. rewrite od_values_eq. cbn [nth_error]. rewrite nth_error_map, Nv. auto. }
  unfold closeb, isclose in C1, Cu. apply qc_leb_le in C1. apply qc_leb_gt in Cu.
  set (tol := (Q2Qc (1 # 100000000) + Q2Qc (1 # 100000) * qabs v)%Qc) in *.
  destruct (qabs_ge (t - v)) as [_ A]. replace (- (t - v))%Qc with (v - t)%Qc in A by ring.
  assert (B : (qabs (u - v) <= v - t)%Qc).
  { unfold qabs. clear - L UV. replace (- (u - v))%Qc with (v - u)%Qc by ring. destruct (qc_leb 0 (u - v)); qc_lra. }
  clear - A B C1 Cu. qc_lra.
Qed.
