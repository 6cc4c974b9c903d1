(** The evaluation with dependent roads: the arguments of the distribution function. *)
From Coq Require Import ZArith List String Bool Arith QArith Qcanon Lia Permutation.
From Verif Require Import Py PyFacts Num Vari VariFacts Brc SpecBrc BrcFacts BrcMisc Cpm SpecCpm CpmFacts.
From Verif Require Import PostMap SpecPost.
Import ListNotations.
Open Scope string_scope.
Open Scope Z_scope.
Open Scope list_scope.

Lemma nth_app_mid {A} (a : list A) x b : nth_error (a ++ x :: b) (List.length a) = Some x.
Proof. induction a; cbn; auto. Qed.
Lemma find_idx_at {A} (p : A -> bool) l i x : nth_error l i = Some x -> p x = true -> (forall j y, (j < i)%nat -> nth_error l j = Some y -> p y = false) -> find_idx p l = Some i.
Proof.
  revert i. induction l as [|a l IH]; intros [|i] E P H; cbn in E; try discriminate.
  - injection E as ->. cbn. rewrite P. auto.
  - cbn. rewrite (H O a) by (auto; lia). rewrite (IH i E P); [reflexivity|]. intros j y Hj Ej. apply (H (S j) y); auto. lia.
Qed.

Section Args.
Context (n : string) (K : list string) (NK : NoDup K) (Nn : ~ In n K) (vars : list variable) (Hv : map v_name vars = n :: K).
Context (MEAN : dict Qc) (COV : list (list Qc)) (HM : forall k, In k K -> exists m, dfind MEAN k = Some m).
Context (c0 : Z) (cs : list Z) (Hl : List.length cs = List.length K) (Hc : forall c, In c cs -> c = 0 \/ c = 1 \/ c = 2).

Definition mean_val (k : string) : Qc := match dfind MEAN k with Some m => m | None => 0%Qc end.
Notation T := (combine (seq 0 (List.length K)) (combine K cs)).
Definition dec (t : list (nat * (string * Z))) : list (nat * (string * Z)) := filter (fun t => negb (snd (snd t) =? 2)) t.
Definition means (t : list (nat * (string * Z))) : list Qc := map (fun t => (sign_of (snd (snd t)) * mean_val (fst (snd t)))%Qc) (dec t).
Definition full (idx : list nat) : list (list Qc) := map (fun i => map (fun j => mat COV (Nat.min i j) (Nat.max i j)) idx) idx.
Definition state (t : list (nat * (string * Z))) : list Qc * list (list Qc) * list nat := (means t, full (map fst (dec t)), map fst (dec t)).

Lemma grow_full idx j2 : (forall i, In i idx -> (i < j2)%nat) -> grow COV (full idx) idx j2 = full (idx ++ [j2]).
Proof.
  intros H. unfold grow, full. rewrite map_app. cbn [map]. f_equal.
  - assert (G : forall l, incl l idx -> map (fun rx => fst rx ++ [snd rx]) (combine (map (fun i => map (fun j => mat COV (Nat.min i j) (Nat.max i j)) idx) l) (map (fun i => mat COV i j2) l)) =
      map (fun i => map (fun j => mat COV (Nat.min i j) (Nat.max i j)) (idx ++ [j2])) l).
    { induction l as [|i l IH]; intros I; auto. cbn [map combine fst snd]. rewrite IH by (intros x Hx; apply I; right; auto). f_equal.
      rewrite map_app. cbn [map]. do 2 f_equal. specialize (H i (I i (or_introl eq_refl))). f_equal; lia. }
    apply G. intros x Hx; auto.
  - f_equal. rewrite map_app. cbn [map]. f_equal; [|do 2 f_equal; lia]. apply map_ext_in. intros i Hi. specialize (H i Hi). f_equal; lia.
Qed.
Lemma T_fst : map fst T = seq 0 (List.length K).
Proof.
  assert (E : List.length (combine K cs) = List.length K) by (rewrite combine_length; lia). rewrite <- E. generalize (combine K cs) 0%nat.
  induction l as [|x l IH]; intros s; cbn; auto. f_equal. apply IH.
Qed.
Lemma T_snd : map snd T = combine K cs.
Proof.
  assert (E : List.length (combine K cs) = List.length K) by (rewrite combine_length; lia). rewrite <- E. generalize (combine K cs) 0%nat.
  induction l as [|x l IH]; intros s; cbn; auto. f_equal. apply IH.
Qed.
Lemma T_arcs : combine (seq 0 (List.length K)) K = map (fun t => (fst t, fst (snd t))) T.
Proof.
  assert (G : forall (a : list string) (b : list Z) s, List.length b = List.length a -> combine (seq s (List.length a)) a = map (fun t => (fst t, fst (snd t))) (combine (seq s (List.length a)) (combine a b))).
  { clear. induction a as [|k a IH]; intros [|c b] s H; cbn in *; auto; try discriminate. f_equal. apply IH. lia. }
  apply G. auto.
Qed.
Lemma T_at pre j k c l : T = pre ++ (j, (k, c)) :: l -> j = List.length pre /\ nth_error K j = Some k /\ nth_error cs j = Some c /\ forall i, In i (map fst pre) -> (i < j)%nat.
Proof.
  intros E. assert (F := T_fst). rewrite E, map_app in F. cbn [map fst] in F.
  assert (Nj : nth_error (seq 0 (List.length K)) (List.length pre) = Some j). { rewrite <- F, <- (map_length fst pre). apply nth_app_mid. }
  assert (Lk : (List.length pre < List.length K)%nat). { rewrite <- (seq_length (List.length K) 0). apply nth_error_Some. congruence. }
  assert (Ej : j = List.length pre). { apply (nth_error_nth _ _ 0%nat) in Nj. rewrite seq_nth in Nj by auto. lia. }
  split; auto.
  assert (S := T_snd). rewrite E, map_app in S. cbn [map snd] in S.
  assert (Nkc : nth_error (combine K cs) j = Some (k, c)). { rewrite <- S, Ej, <- (map_length snd pre). apply nth_app_mid. }
  assert (X : forall (a : list string) (b : list Z) i, nth_error (combine a b) i = Some (k, c) -> nth_error a i = Some k /\ nth_error b i = Some c).
  { clear. induction a as [|x a IH]; intros [|y b] [|i] H; cbn in *; try discriminate; auto. injection H as <- <-. auto. }
  destruct (X _ _ _ Nkc). split; auto. split; auto. intros i Hi.
  assert (P : map fst pre = seq 0 (List.length pre)).
  { assert (Y : forall m (a b : list nat) s, seq s m = a ++ b -> a = seq s (List.length a)).
    { clear. induction m as [|m IH]; intros [|x a] b s H; cbn in *; auto; try discriminate. injection H as <- H. f_equal. apply (IH a b (S s) H). }
    rewrite <- (map_length fst pre). apply (Y _ _ _ _ (eq_sym F)). }
  rewrite P in Hi. apply in_seq in Hi. lia.
Qed.
Lemma args_fold l pre : T = pre ++ l ->
  foldM (row_step vars MEAN COV (c0 :: cs)) (map (fun t => (fst t, fst (snd t))) l) (state pre) = Ok (state T).
Proof.
  revert pre. induction l as [|[j [k c]] l IH]; intros pre E.
  - rewrite app_nil_r in E. rewrite <- E. reflexivity.
  - destruct (T_at pre j k c l E) as (Ej & Nk & Nc & Lt). cbn [map foldM fst snd].
    assert (Ik : In k K) by (eapply nth_error_In; eauto). destruct (HM k Ik) as (m & Em).
    assert (Fi : find_idx (fun x => String.eqb (v_name x) k) vars = Some (S j)).
    { assert (Nv : nth_error (map v_name vars) (S j) = Some k) by (rewrite Hv; auto). rewrite nth_error_map in Nv. destruct (nth_error vars (S j)) as [v|] eqn:Ev; [|discriminate]. cbn in Nv. injection Nv as Nv.
      apply (find_idx_at _ _ _ v); auto; [apply String.eqb_eq; auto|]. intros i y Hi Ey. apply String.eqb_neq. intros X.
      assert (Ny : nth_error (n :: K) i = Some k) by (rewrite <- Hv, nth_error_map, Ey; cbn; congruence).
      assert (ND : NoDup (n :: K)) by (constructor; auto). assert (Li : (i < List.length (n :: K))%nat) by (apply nth_error_Some; congruence).
      assert (Nz : nth_error (n :: K) (S j) = Some k) by auto. assert (Z := proj1 (NoDup_nth_error (n :: K)) ND i (S j) Li). rewrite Ny, Nz in Z. specialize (Z eq_refl). lia. }
    assert (S : row_step vars MEAN COV (c0 :: cs) (state pre) (j, k) = Ok (state (pre ++ [(j, (k, c))]))).
    { unfold row_step, state at 1. cbn [snd fst]. rewrite Fi. assert (A : at_ (c0 :: cs) (S j) = c) by (unfold at_; cbn [nth]; apply (nth_error_nth _ _ 0); auto). rewrite A.
      assert (Ed : dec (pre ++ [(j, (k, c))]) = dec pre ++ (if c =? 2 then [] else [(j, (k, c))])).
      { unfold dec. rewrite filter_app. cbn [filter snd]. destruct (c =? 2); auto. }
      unfold state, means. rewrite Ed. assert (Gd : dget MEAN k = Ok m) by (apply dget_ok; auto).
      assert (Mv : mean_val k = m) by (unfold mean_val; rewrite Em; auto).
      destruct (Hc c (nth_error_In _ _ Nc)) as [->|[->| ->]]; cbn [Z.eqb Pos.eqb]; [| |rewrite app_nil_r; auto].
      all: rewrite Gd; cbn [bind]; rewrite !map_app; cbn [map fst snd]; rewrite grow_full; [|intros i Hi; apply Lt; apply in_map_iff in Hi as (t & <- & Ht); apply in_map; apply filter_In in Ht; apply Ht].
      all: cbn [Pos.eqb bind map fst snd]; unfold sign_of; cbn [Z.eqb]; rewrite Mv; do 5 f_equal; ring. }
    rewrite S. cbn [bind]. apply IH. rewrite <- app_assoc. auto.
Qed.
Lemma args_eq : row_args vars MEAN COV K (c0 :: cs) = Ok (means T, full (map fst (dec T))).
Proof.
  unfold row_args. rewrite T_arcs. change ([], [], []) with (state []). rewrite (args_fold T []) by auto. reflexivity.
Qed.
Lemma dec_decided : map snd (dec T) = decided K (c0 :: cs).
Proof.
  assert (G : forall (t : list (nat * (string * Z))) q, map snd t = q -> map snd (filter (fun t => negb (snd (snd t) =? 2)) t) = filter (fun kc => negb (snd kc =? 2)) q).
  { clear. induction t as [|t l IH]; intros q <-; auto. cbn [map filter]. destruct (snd (snd t) =? 2); cbn [negb map]; rewrite (IH _ eq_refl); auto. }
  apply G. apply T_snd.
Qed.
Lemma T_nth t : In t (dec T) -> nth_error K (fst t) = Some (fst (snd t)) /\ (snd (snd t) = 0 \/ snd (snd t) = 1).
Proof.
  intros H. apply filter_In in H as [H N]. destruct t as (j & k & c). cbn [fst snd] in *. apply in_split in H as (a & b & E). destruct (T_at a j k c b E) as (_ & A & B & _). split; auto.
  destruct (Hc c (nth_error_In _ _ B)) as [->|[->| ->]]; auto; discriminate.
Qed.

(** with the moments of a law *)
Context (l : law) (Hfit : law_fits K MEAN COV l).
Lemma mean_side kc : mean_of l (side kc) = (sign_of (snd kc) * mean_of l (fun z => z (fst kc)))%Qc.
Proof.
  unfold mean_of, side, turned. clear. induction l as [|[w z] l' IH]; cbn [map qsum fst snd]; [ring|]. rewrite IH. ring.
Qed.
Lemma cov_side kc kc' : cov_of l (side kc) (side kc') = (sign_of (snd kc) * sign_of (snd kc') * cov_of l (fun z => z (fst kc)) (fun z => z (fst kc')))%Qc.
Proof.
  unfold cov_of at 1. rewrite !mean_side. unfold cov_of. set (a := mean_of l (fun z => z (fst kc))). set (b := mean_of l (fun z => z (fst kc'))).
  clearbody a b. unfold mean_of, side, turned. clear. induction l as [|[w z] l' IH]; cbn [map qsum fst snd]; [ring|]. rewrite IH. ring.
Qed.
Lemma cov_sym g h : cov_of l g h = cov_of l h g.
Proof. unfold cov_of, mean_of. apply qsum_map_ext. intros. ring. Qed.
Lemma mat_cov i j ki kj : nth_error K i = Some ki -> nth_error K j = Some kj -> mat COV i j = cov_of l (fun z => z ki) (fun z => z kj).
Proof.
  intros Hi Hj. destruct Hfit as (_ & _ & F). destruct (F i j ki kj Hi Hj) as (row & E1 & E2). unfold mat. rewrite (nth_error_nth _ _ [] E1), (nth_error_nth _ _ 0%Qc E2). auto.
Qed.
Lemma mat_order i j ki kj : nth_error K i = Some ki -> nth_error K j = Some kj -> mat COV (Nat.min i j) (Nat.max i j) = cov_of l (fun z => z ki) (fun z => z kj).
Proof.
  intros Hi Hj. destruct (Nat.le_ge_cases i j) as [H|H].
  - rewrite Nat.min_l, Nat.max_r by auto. apply mat_cov; auto.
  - rewrite Nat.min_r, Nat.max_l by auto. rewrite cov_sym. apply mat_cov; auto.
Qed.
Lemma means_right : means T = side_means l (decided K (c0 :: cs)).
Proof.
  unfold side_means. rewrite <- dec_decided, map_map. unfold means. apply map_ext_in. intros t Ht. rewrite mean_side. f_equal. destruct (T_nth t Ht) as [Nt _].
  destruct Hfit as (_ & F & _). unfold mean_val. rewrite (F (fst (snd t))) by (eapply nth_error_In; eauto). auto.
Qed.
Lemma sign_eq c c' : (c = 0 \/ c = 1) -> (c' = 0 \/ c' = 1) -> (sign_of c * sign_of c')%Qc = if c =? c' then 1%Qc else (- (1))%Qc.
Proof. intros [->| ->] [->| ->]; apply Qc_is_canon; reflexivity. Qed.
Lemma covs_right : (forall i j ki kj, i <> j -> nth_error K i = Some ki -> nth_error K j = Some kj -> mat COV i j <> 0%Qc) ->
  (full (map fst (dec T)) = side_covs l (decided K (c0 :: cs)) <-> forall kc kc', In kc (decided K (c0 :: cs)) -> In kc' (decided K (c0 :: cs)) -> snd kc = snd kc').
Proof.
  intros Hne. unfold full, side_covs. rewrite <- dec_decided. rewrite !map_map.
  assert (Q : forall t t', In t (dec T) -> In t' (dec T) -> (mat COV (Nat.min (fst t) (fst t')) (Nat.max (fst t) (fst t')) = cov_of l (side (snd t)) (side (snd t')) <-> snd (snd t) = snd (snd t'))).
  { intros t t' Ht Ht'. destruct (T_nth t Ht) as [N1 C1]. destruct (T_nth t' Ht') as [N2 C2]. rewrite cov_side, (mat_order _ _ _ _ N1 N2), (sign_eq _ _ C1 C2).
    destruct (Z.eqb_spec (snd (snd t)) (snd (snd t'))) as [E|E].
    - split; auto. intros _. ring.
    - split; [|contradiction]. intros X. exfalso.
      assert (Nt : fst t <> fst t').
      { intros Ef. apply E. apply filter_In in Ht as [Ht _]. apply filter_In in Ht' as [Ht' _]. destruct t as (i & k & c), t' as (i' & k' & c'). cbn [fst snd] in *. subst i'.
        apply in_split in Ht as (a & b & Ea). destruct (T_at _ _ _ _ _ Ea) as (_ & _ & A & _). apply in_split in Ht' as (a' & b' & Ea'). destruct (T_at _ _ _ _ _ Ea') as (_ & _ & A' & _). congruence. }
      apply (Hne _ _ _ _ Nt N1 N2). rewrite (mat_cov _ _ _ _ N1 N2). revert X. generalize (cov_of l (fun z => z (fst (snd t))) (fun z => z (fst (snd t')))). clear. intros q X.
      assert (Y : (q + q = 0)%Qc) by (rewrite X at 2; ring). revert Y. clear. intros Y. assert (Z : ((1 + 1) * q = 0)%Qc) by (rewrite <- Y; ring). destruct (Qcmult_integral _ _ Z) as [W|W]; auto.
      exfalso. apply (f_equal this) in W. vm_compute in W. discriminate. }
  assert (ME : forall {A B} (g h : A -> B) L, map g L = map h L <-> forall x, In x L -> g x = h x).
  { clear. intros A B g h. induction L as [|a L IH]; cbn [map]; [split; [intros _ x []|auto]|]. split.
    - intros H. injection H as H1 H2. intros x [<-|Hx]; auto. apply IH; auto.
    - intros H. f_equal; [apply H; left; auto|]. apply IH. intros x Hx. apply H. right; auto. }
  rewrite ME. split.
  - intros H kc kc' I I'. apply in_map_iff in I as (t & <- & Ht). apply in_map_iff in I' as (t' & <- & Ht'). specialize (H t Ht). rewrite !map_map in H. apply (Q t t' Ht Ht'). apply (proj1 (ME _ _ _ _ _) H t' Ht').
  - intros H t Ht. rewrite !map_map. apply ME. intros t' Ht'. apply Q; auto. apply H; apply in_map; auto.
Qed.
End Args.
