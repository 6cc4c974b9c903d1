(** Proofs about the legacy branch and bound. *)
From Coq Require Import ZArith List String Bool Arith QArith Qcanon Lia Permutation Sorting.
From Verif Require Import Py PyFacts Num Vari VariFacts Cpm SpecCpm Legacy SpecLegacy.
Import ListNotations.
Open Scope string_scope.
Open Scope Z_scope.
Open Scope list_scope.

Lemma py_index_nth {A} (l : list A) i a : nth_error l i = Some a -> py_index l (Z.of_nat i) = Ok a.
Proof.
  intros H. assert (L : (i < List.length l)%nat) by (apply nth_error_Some; congruence). unfold py_index.
  destruct (Z.ltb_spec (Z.of_nat i) 0); [lia|]. destruct (Z.leb_spec 0 (Z.of_nat i)); [|lia].
  destruct (Z.ltb_spec (Z.of_nat i) (Z.of_nat (List.length l))); [|lia]. cbn [andb]. rewrite Nat2Z.id, H. auto.
Qed.

Lemma set_nth_0 {A} (a v : A) l : set_nth (a :: l) 0 v = v :: l.
Proof. reflexivity. Qed.
Lemma set_nth_S {A} (a v : A) l i : set_nth (a :: l) (S i) v = a :: set_nth l i v.
Proof. reflexivity. Qed.
Lemma set_nth_mid {A} (pre post : list A) b v : set_nth (pre ++ b :: post) (List.length pre) v = pre ++ v :: post.
Proof. induction pre; [reflexivity|]. cbn [app List.length]. rewrite set_nth_S, IHpre. auto. Qed.
Lemma del_nth_mid {A} (pre post : list A) b : del_nth (pre ++ b :: post) (List.length pre) = pre ++ post.
Proof. induction pre; [reflexivity|]. cbn [app List.length]. unfold del_nth in *. cbn [firstn skipn app]. f_equal. exact IHpre. Qed.

(** * Positions of the incomplete branches *)
Lemma idx_from_app {V} (pre post : list (lbranch V)) k : idx_from k (pre ++ post) = idx_from k pre ++ idx_from (k + List.length pre) post.
Proof.
  revert k. induction pre as [|b pre IH]; intros k; cbn [app idx_from List.length].
  - rewrite Nat.add_0_r. auto.
  - rewrite IH. replace (S k + List.length pre)%nat with (k + S (List.length pre))%nat by lia. destruct (l_complete b); auto.
Qed.
Lemma idx_from_all {V} (brs : list (lbranch V)) k : (forall b, In b brs -> l_complete b = true) -> idx_from k brs = [].
Proof. revert k. induction brs as [|b brs IH]; intros k H; cbn [idx_from]; auto. rewrite (H b) by (cbn; auto). apply IH. intros. apply H. cbn. auto. Qed.
Lemma idx_from_nil {V} (brs : list (lbranch V)) k : idx_from k brs = [] -> forall b, In b brs -> l_complete b = true.
Proof.
  revert k. induction brs as [|b brs IH]; intros k H b' Hb; [destruct Hb|].
  cbn [idx_from] in H. destruct (l_complete b) eqn:E; [|discriminate]. destruct Hb as [<-|Hb]; eauto.
Qed.
Lemma get_idx_cons {V} (brs : list (lbranch V)) i rest : get_idx brs = i :: rest ->
  exists pre b post, brs = pre ++ b :: post /\ i = List.length pre /\ l_complete b = false /\ (forall b, In b pre -> l_complete b = true) /\
    rest = idx_from (S (List.length pre)) post.
Proof.
  unfold get_idx. assert (G : forall k, idx_from k brs = i :: rest -> exists pre b post, brs = pre ++ b :: post /\ i = (k + List.length pre)%nat /\ l_complete b = false /\
    (forall b, In b pre -> l_complete b = true) /\ rest = idx_from (S (k + List.length pre)) post).
  { induction brs as [|b brs IH]; intros k H; [discriminate|]. cbn [idx_from] in H. destruct (l_complete b) eqn:E.
    - destruct (IH _ H) as (pre & b' & post & -> & -> & E' & A & ->). exists (b :: pre), b', post. cbn [app List.length].
      split; [reflexivity|]. split; [lia|]. split; auto. split; [intros c [<-|Hc]; auto|]. f_equal; lia.
    - injection H as <- <-. exists [], b, brs. cbn [app List.length]. rewrite Nat.add_0_r. repeat split; auto; intros ? []. }
  intros H. apply (G 0%nat H).
Qed.

(** * Boxes *)
Definition b2n (b : bool) : nat := if b then 1 else 0.
Lemma between_split lo up : forall x i l u s, nth_error lo i = Some l -> nth_error up i = Some u -> l <= s < u ->
  b2n (between lo up x) = (b2n (between lo (set_nth up i s) x) + b2n (between (set_nth lo i (s + 1)%Z) up x))%nat.
Proof.
  revert up. induction lo as [|l0 lo IH]; intros [|u0 up] x [|i] l u s Hl Hu Hs; try discriminate; cbn [nth_error] in Hl, Hu.
  - injection Hl as ->. injection Hu as ->. rewrite !set_nth_0. destruct x as [|v x]; auto. cbn [between].
    destruct (between lo up x); rewrite ?andb_true_r, ?andb_false_r; auto.
    destruct (Z.leb_spec l v), (Z.leb_spec v u), (Z.leb_spec v s), (Z.leb_spec (s + 1) v); cbn; lia.
  - rewrite !set_nth_S. destruct x as [|v x]; auto. cbn [between]. specialize (IH up x i l u s Hl Hu Hs).
    destruct ((l0 <=? v) && (v <=? u0)); cbn [andb]; auto.
Qed.

Fixpoint lsize (lo up : list Z) : nat :=
  match lo, up with l :: lo', u :: up' => (Z.to_nat (u - l + 1) * lsize lo' up')%nat | _, _ => 1%nat end.
Lemma lsize_split lo up : forall i l u s, nth_error lo i = Some l -> nth_error up i = Some u -> l <= s < u ->
  lsize lo up = (lsize lo (set_nth up i s) + lsize (set_nth lo i (s + 1)%Z) up)%nat.
Proof.
  revert up. induction lo as [|l0 lo IH]; intros [|u0 up] [|i] l u s Hl Hu Hs; try discriminate; cbn [nth_error] in Hl, Hu.
  - injection Hl as ->. injection Hu as ->. rewrite !set_nth_0. cbn [lsize].
    replace (Z.to_nat (u - l + 1)) with (Z.to_nat (s - l + 1) + Z.to_nat (u - (s + 1) + 1))%nat by lia. lia.
  - rewrite !set_nth_S. cbn [lsize]. rewrite (IH up i l u s Hl Hu Hs) at 1. lia.
Qed.
Lemma lsize_pos lo up : Forall2 Z.le lo up -> (1 <= lsize lo up)%nat.
Proof. induction 1 as [|l u lo up H _ IH]; cbn [lsize]; [lia|]. assert (1 <= Z.to_nat (u - l + 1))%nat by lia. nia. Qed.

Lemma Forall2_nth {A B} (P : A -> B -> Prop) l1 l2 i a : Forall2 P l1 l2 -> nth_error l1 i = Some a -> exists b, nth_error l2 i = Some b /\ P a b.
Proof.
  intros H. revert i. induction H as [|x y l1 l2 Hp _ IH]; intros [|i] E; try discriminate; cbn [nth_error] in *.
  - injection E as <-. eauto.
  - eauto.
Qed.
Lemma Forall2_set_r {A B} (P : A -> B -> Prop) l1 l2 i a v : Forall2 P l1 l2 -> nth_error l1 i = Some a -> P a v -> Forall2 P l1 (set_nth l2 i v).
Proof.
  intros H. revert i. induction H as [|x y l1 l2 Hp H IH]; intros [|i] E Pv; try discriminate; cbn [nth_error] in *.
  - injection E as <-. rewrite set_nth_0. auto.
  - rewrite set_nth_S. constructor; auto.
Qed.
Lemma Forall2_set_l {A B} (P : A -> B -> Prop) l1 l2 i a v : Forall2 P l1 l2 -> nth_error l2 i = Some a -> P v a -> Forall2 P (set_nth l1 i v) l2.
Proof.
  intros H. revert i. induction H as [|x y l1 l2 Hp H IH]; intros [|i] E Pv; try discriminate; cbn [nth_error] in *.
  - injection E as <-. rewrite set_nth_0. auto.
  - rewrite set_nth_S. constructor; auto.
Qed.
Lemma vec_ok_length mx x : vec_ok mx x -> List.length x = List.length mx.
Proof. intros H. unfold vec_ok in H. induction H; cbn; auto. Qed.

(** * The loop *)
Section Run.
Variables V R : Type.
Variable sys_fn : list Z -> res (Z * V * R).
Variable next_comp_fn : list string -> R -> R -> res string.
Variable next_state_fn : string -> list Z -> R -> R -> res Z.
Variable arcs : list string.
Variable mx : list Z.
Hypothesis Na : NoDup arcs.
Hypothesis La : List.length mx = List.length arcs.
Hypothesis Hsys : forall x, vec_ok mx x -> exists r, sys_fn x = Ok r.
Hypothesis Hcomp : forall cand rd ru, cand <> [] -> incl cand arcs -> exists c, next_comp_fn cand rd ru = Ok c /\ In c cand.
Hypothesis Hstate : forall i c m d u rd ru, nth_error arcs i = Some c -> nth_error mx i = Some m -> 1 <= d < u -> u <= m ->
  exists s, next_state_fn c [d; u] rd ru = Ok s /\ d <= s < u.

Definition settled (b : lbranch V) : Prop :=
  exists s vd vu rd ru, sys_fn (l_down b) = Ok (s, vd, rd) /\ sys_fn (l_up b) = Ok (s, vu, ru) /\
    l_dstate b = s /\ l_ustate b = s /\ l_dval b = Some vd /\ l_uval b = Some vu.
Definition bok (b : lbranch V) : Prop :=
  vec_ok mx (l_down b) /\ vec_ok mx (l_up b) /\ Forall2 Z.le (l_down b) (l_up b) /\ (l_complete b = true -> settled b).
Definition need (brs : list (lbranch V)) : nat :=
  list_sum (map (fun b => if l_complete b then 0 else 2 * lsize (l_down b) (l_up b) - 1)%nat brs).

Lemma cand_ok down up : vec_ok mx down -> vec_ok mx up -> exists cand, cand_comps arcs down up = Ok cand /\ incl cand arcs /\
  (forall c, In c cand -> exists i d u, nth_error arcs i = Some c /\ nth_error down i = Some d /\ nth_error up i = Some u /\ d < u) /\
  (cand = [] -> Forall2 Z.le down up -> down = up).
Proof.
  intros Hd Hu. assert (Ld := vec_ok_length _ _ Hd). assert (Lu := vec_ok_length _ _ Hu). unfold cand_comps.
  replace (Nat.min (List.length up) (List.length down)) with (List.length arcs) by lia.
  set (is := filter _ _). assert (G : mapM (fun i => py_index arcs (Z.of_nat i)) is = Ok (map (fun i => nth i arcs "") is)).
  { apply mapM_ok. intros i Hi. apply filter_In in Hi as [Hi _]. apply in_seq in Hi. apply py_index_nth. apply nth_error_nth'. lia. }
  rewrite G. eexists. split; [reflexivity|].
  assert (S : forall c, In c (map (fun i => nth i arcs "") is) -> exists i d u, nth_error arcs i = Some c /\ nth_error down i = Some d /\ nth_error up i = Some u /\ d < u).
  { intros c Hc. apply in_map_iff in Hc as (i & <- & Hi). apply filter_In in Hi as [Hi Hlt]. apply in_seq in Hi. apply Z.ltb_lt in Hlt.
    exists i, (nth i down 0), (nth i up 0). split; [apply nth_error_nth'; lia|]. split; [apply nth_error_nth'; lia|]. split; [apply nth_error_nth'; lia|]. auto. }
  split; [intros c Hc; destruct (S c Hc) as (i & _ & _ & E & _); apply (nth_error_In _ _ E)|]. split; [exact S|].
  intros E Hle. assert (Ei : is = []) by (destruct is; [auto|discriminate]).
  apply nth_ext with (d := 0) (d' := 0); [lia|]. intros i Hi.
  destruct (Forall2_nth _ _ _ i (nth i down 0) Hle) as (u & E1 & E2); [apply nth_error_nth'; lia|].
  rewrite (nth_error_nth up i 0 E1). assert (~ nth i down 0 < u); [|lia]. intros X.
  assert (In i is); [|rewrite Ei in H; destruct H]. apply filter_In. split; [apply in_seq; lia|]. apply Z.ltb_lt. rewrite (nth_error_nth up i 0 E1). auto.
Qed.

Lemma covered_app (a b : list (lbranch V)) x : lcovered (a ++ b) x = (lcovered a x + lcovered b x)%nat.
Proof. unfold lcovered. rewrite filter_app, app_length. auto. Qed.
Lemma covered_cons (a : lbranch V) b x : lcovered (a :: b) x = (b2n (between (l_down a) (l_up a) x) + lcovered b x)%nat.
Proof. unfold lcovered. cbn [filter]. destruct (between _ _ _); auto. Qed.
Lemma need_app a b : need (a ++ b) = (need a + need b)%nat.
Proof. unfold need. rewrite map_app, list_sum_app. auto. Qed.
Lemma need_cons a b : need (a :: b) = ((if l_complete a then 0 else 2 * lsize (l_down a) (l_up a) - 1) + need b)%nat.
Proof. reflexivity. Qed.

Lemma loop_ok fuel : forall brs, (forall b, In b brs -> bok b) -> (need brs <= fuel)%nat ->
  exists out, bnb_loop V R sys_fn next_comp_fn next_state_fn arcs fuel brs (get_idx brs) = Ok out /\
    (forall b, In b out -> bok b /\ l_complete b = true) /\ forall x, lcovered out x = lcovered brs x.
Proof.
  induction fuel as [|f IH]; intros brs Hb Hn.
  - assert (E : get_idx brs = []).
    { destruct (get_idx brs) as [|i rest] eqn:E; auto. exfalso. apply get_idx_cons in E as (pre & b & post & -> & _ & Ec & _).
      rewrite need_app, need_cons, Ec in Hn. destruct (Hb b) as (_ & _ & Hle & _); [apply in_or_app; cbn; auto|]. apply lsize_pos in Hle. lia. }
    rewrite E. exists brs. split; [reflexivity|]. split; [|auto]. intros b H. split; [auto|]. apply (idx_from_nil brs 0 E b H).
  - destruct (get_idx brs) as [|i rest] eqn:E.
    { exists brs. split; [reflexivity|]. split; [|auto]. intros b H. split; [auto|]. apply (idx_from_nil brs 0 E b H). }
    apply get_idx_cons in E as (pre & b & post & Eb & Ei & Ec & Apre & Er). subst brs i rest.
    destruct (Hb b) as (Vd & Vu & Hle & _); [apply in_or_app; cbn; auto|].
    destruct (Hsys _ Vd) as [[[sd vd] rd] Ed]. destruct (Hsys _ Vu) as [[[su vu] ru] Eu].
    cbn [bnb_loop]. rewrite (py_index_nth _ _ b) by (rewrite nth_error_app2, Nat.sub_diag by lia; auto). cbn [bind].
    rewrite Ed, Eu. cbn [bind fst snd]. assert (Ps := lsize_pos _ _ Hle). destruct (Z.eqb_spec sd su) as [<-|Ne].
    + rewrite set_nth_mid. set (b' := mkLB _ _ _ _ _ _ _). specialize (IH (pre ++ b' :: post)).
      assert (Eix : get_idx (pre ++ b' :: post) = idx_from (S (List.length pre)) post).
      { unfold get_idx. rewrite idx_from_app, (idx_from_all pre) by auto. cbn [app Nat.add idx_from]. reflexivity. }
      rewrite Eix in IH. destruct IH as (out & Eo & Ho & Co).
      * intros c Hc. apply in_app_iff in Hc as [Hc|[<-|Hc]]; [apply Hb, in_or_app; auto| |apply Hb, in_or_app; cbn; auto].
        split; [exact Vd|]. split; [exact Vu|]. split; [exact Hle|]. intros _. exists sd, vd, vu, rd, ru. cbn [b' l_down l_up l_dstate l_ustate l_dval l_uval]. repeat split; auto.
      * rewrite need_app, need_cons, Ec in Hn. rewrite need_app, need_cons. cbn [b' l_complete]. lia.
      * exists out. split; [exact Eo|]. split; [exact Ho|]. intros x. rewrite Co, !covered_app, !covered_cons. reflexivity.
    + destruct (cand_ok _ _ Vd Vu) as (cand & Ecd & Inc & Sc & Nc). rewrite Ecd. cbn [bind].
      assert (Hcn : cand <> []). { intros X. apply Ne. assert (l_down b = l_up b) by auto. congruence. }
      destruct (Hcomp cand rd ru Hcn Inc) as (c & Enc & Hc). rewrite Enc. cbn [bind].
      destruct (Sc c Hc) as (i & d & u & Ea & Edi & Eui & Lt).
      assert (Epi : py_list_index (String.eqb c) arcs = Ok (Z.of_nat i)).
      { unfold py_list_index. destruct (find_idx (String.eqb c) arcs) as [j|] eqn:Ej.
        - apply find_idx_some in Ej as (c' & Ej & E2 & _). apply String.eqb_eq in E2. subst c'. f_equal. f_equal.
          apply (proj1 (NoDup_nth_error arcs) Na); [apply nth_error_Some; congruence|congruence].
        - exfalso. destruct (find_idx_in (String.eqb c) arcs c) as [j Hj]; [apply (nth_error_In _ _ Ea)|apply String.eqb_refl|congruence]. }
      rewrite Epi. cbn [bind]. rewrite (py_index_nth _ _ _ Edi), (py_index_nth _ _ _ Eui). cbn [bind].
      assert (Em : exists m, nth_error mx i = Some m).
      { destruct (nth_error mx i) eqn:X; eauto. exfalso. apply nth_error_None in X. assert (i < List.length arcs)%nat by (apply nth_error_Some; congruence). lia. }
      destruct Em as [m Em].
      destruct (Forall2_nth _ _ _ i m Vd Em) as (d' & Ed' & Bd). assert (d' = d) by congruence. subst d'.
      destruct (Forall2_nth _ _ _ i m Vu Em) as (u' & Eu' & Bu). assert (u' = u) by congruence. subst u'.
      destruct (Hstate i c m d u rd ru Ea Em) as (s & Es & Bs); [lia|lia|]. rewrite Es. cbn [bind]. rewrite Nat2Z.id, del_nth_mid.
      set (bd := mkLB (l_down b) _ _ _ _ _ _). set (bu := mkLB _ (l_up b) _ _ _ _ _).
      destruct (IH ((pre ++ post) ++ [bd; bu])) as (out & Eo & Ho & Co).
      * intros b' Hb'. apply in_app_iff in Hb' as [Hb'|Hb'].
        { apply Hb. apply in_app_iff in Hb' as [|]; apply in_or_app; cbn; auto. }
        destruct Hb' as [<-|[<-|[]]].
        -- split; [exact Vd|]. split; [apply (Forall2_set_r _ _ _ _ m); auto; lia|]. split; [apply (Forall2_set_r _ _ _ _ d); auto; lia|].
           cbn [bd l_complete]. congruence.
        -- split; [apply (Forall2_set_r _ _ _ _ m); auto; lia|]. split; [exact Vu|]. split; [apply (Forall2_set_l _ _ _ _ u); auto; lia|].
           cbn [bu l_complete]. congruence.
      * rewrite !need_app, !need_cons in *. cbn [bd bu l_complete l_down l_up] in *. rewrite Ec in *.
        assert (Q := lsize_split (l_down b) (l_up b) i d u s Edi Eui Bs).
        assert (P1 : (1 <= lsize (l_down b) (set_nth (l_up b) i s))%nat) by (apply lsize_pos, (Forall2_set_r _ _ _ _ d); auto; lia).
        assert (P2 : (1 <= lsize (set_nth (l_down b) i (s + 1)%Z) (l_up b))%nat) by (apply lsize_pos, (Forall2_set_l _ _ _ _ u); auto; lia).
        change (need []) with 0%nat in *. lia.
      * exists out. split; [exact Eo|]. split; [exact Ho|]. intros x. rewrite Co, !covered_app, !covered_cons. cbn [bd bu l_down l_up].
        rewrite (between_split (l_down b) (l_up b) x i d u s Edi Eui Bs). change (@lcovered V [] x) with 0%nat. lia.
Qed.

Lemma between_all x : between (map (fun _ => 1) mx) mx x = true <-> vec_ok mx x.
Proof.
  clear. unfold vec_ok. revert x. induction mx as [|m l IH]; intros [|v x]; cbn [map between].
  - split; auto.
  - split; [discriminate|]. intros H. inversion H.
  - split; [discriminate|]. intros H. inversion H.
  - split.
    + intros H. apply andb_true_iff in H as [H1 H2]. apply andb_true_iff in H1 as [H0 H1]. apply Z.leb_le in H0, H1. constructor; [lia|]. apply IH; auto.
    + intros H. inversion H; subst. rewrite (proj2 (IH x)) by auto. rewrite (proj2 (Z.leb_le 1 v)), (proj2 (Z.leb_le v m)) by lia. auto.
Qed.

Lemma run_ok fuel : (forall m, In m mx -> 1 <= m) -> (2 * lsize (map (fun _ => 1%Z) mx) mx <= fuel)%nat ->
  exists out, run_bnb V R sys_fn next_comp_fn next_state_fn arcs fuel mx = Ok out /\
    (forall b, In b out -> bok b /\ l_complete b = true) /\ forall x, vec_ok mx x -> lcovered out x = 1%nat.
Proof.
  intros Hm Hf. unfold run_bnb. rewrite La, Nat.eqb_refl. set (b0 := mkLB _ _ _ _ _ _ _).
  destruct (loop_ok fuel [b0]) as (out & Eo & Ho & Co).
  - intros b [<-|[]]. cbn [b0]. unfold bok. cbn [l_down l_up l_complete].
    assert (A : vec_ok mx (map (fun _ => 1) mx) /\ vec_ok mx mx /\ Forall2 Z.le (map (fun _ => 1) mx) mx).
    { clear - Hm. unfold vec_ok. induction mx as [|m l IH]; cbn [map]; [repeat split; constructor|].
      destruct IH as (I1 & I2 & I3); [intros; apply Hm; cbn; auto|]. assert (1 <= m) by (apply Hm; cbn; auto).
      repeat split; constructor; auto; lia. }
    destruct A as (A1 & A2 & A3). repeat split; auto. discriminate.
  - rewrite need_cons. cbn [b0 l_complete l_down l_up]. change (need []) with 0%nat. lia.
  - exists out. split; [exact Eo|]. split; [exact Ho|]. intros x Hx. rewrite Co, covered_cons. cbn [b0 l_down l_up].
    rewrite (proj2 (between_all x) Hx). reflexivity.
Qed.
End Run.

(** * [get_cmat] *)
Lemma gen_B_pair n : (2 <= n)%nat -> nth_error (gen_B n) n = Some [0; 1].
Proof.
  intros H. destruct n as [|[|n]]; try lia. unfold gen_B. cbn [seq flat_map]. rewrite combinations_1.
  rewrite nth_error_app2 by (rewrite map_length, zrange_length; lia). rewrite map_length, zrange_length.
  replace (S (S n) - Z.to_nat (Z.of_nat (S (S n)) - 0))%nat with 0%nat by lia.
  unfold zrange. replace (Z.to_nat (Z.of_nat (S (S n)) - 0)) with (S (S n)) by lia. cbn [seq map]. cbn [combinations]. 
  destruct (map (fun i => 0 + Z.of_nat i) (seq 2 n)); reflexivity.
Qed.
Lemma gen_B_single n x : 0 <= x < Z.of_nat n -> find_idx (set_eqb [x]) (gen_B n) = Some (Z.to_nat x).
Proof.
  intros H. assert (E := gen_B_basic n (Z.to_nat x) ltac:(lia)). rewrite Z2Nat.id in E by lia.
  destruct (find_idx_in (set_eqb [x]) (gen_B n) [x]) as [i Hi]; [apply (nth_error_In _ _ E)|apply set_eqb_spec; tauto|].
  rewrite Hi. apply find_idx_some in Hi as (a & Ha & Hx & Hm). f_equal.
  destruct (Nat.lt_trichotomy (Z.to_nat x) i) as [L|[L|L]]; auto.
  - specialize (Hm _ _ L E). assert (set_eqb [x] [x] = true) by (apply set_eqb_spec; tauto). congruence.
  - rewrite (gen_B_basic n i) in Ha by lia. injection Ha as <-. apply set_eqb_spec with (x := x) in Hx. cbn in Hx. assert (Z.of_nat i = x) by tauto. lia.
Qed.

Definition lo_of (n : Z) (flag : bool) (d u : Z) : Z := if flag then d - 1 else n - u.
Definition hi_of (n : Z) (flag : bool) (d u : Z) : Z := if flag then u - 1 else n - d.
Lemma cmat_code_ok v flag d u : v_B v = Some (gen_B (List.length (v_values v))) -> 1 <= d <= u -> u <= nvals v ->
  cmat_code v flag d u =
    Ok (if d =? u then hi_of (nvals v) flag d u
        else if (lo_of (nvals v) flag d u =? 0) && (hi_of (nvals v) flag d u =? 1) then nvals v else lo_of (nvals v) flag d u).
Proof.
  intros HB H1 H2. unfold cmat_code. fold (lo_of (nvals v) flag d u) (hi_of (nvals v) flag d u). set (lo := lo_of _ _ _ _). set (hi := hi_of _ _ _ _).
  assert (R : 0 <= lo /\ lo <= hi < nvals v) by (unfold lo, hi, lo_of, hi_of; destruct flag; lia).
  assert (D : (hi =? lo) = (d =? u)) by (unfold lo, hi, lo_of, hi_of; destruct flag; destruct (Z.eqb_spec d u); [apply Z.eqb_eq|apply Z.eqb_neq|apply Z.eqb_eq|apply Z.eqb_neq]; lia).
  rewrite D. destruct (Z.eqb_spec d u); auto. assert (lo < hi) by (unfold lo, hi, lo_of, hi_of; destruct flag; lia).
  rewrite HB. cbn [bind]. rewrite map_map.
  assert (E : map (fun x => find_idx (set_eqb [x]) (gen_B (List.length (v_values v)))) (zrange lo hi) = map (fun x => Some (Z.to_nat x)) (zrange lo hi)).
  { apply map_ext_in. intros x Hx. apply In_zrange in Hx. apply gen_B_single. unfold nvals in R. lia. }
  rewrite E. destruct (Z.eqb_spec lo 0) as [L0|L0].
  - destruct (Z.eqb_spec hi 1) as [H3|H3]; cbn [andb].
    + rewrite L0, H3. reflexivity.
    + assert (X : existsb (fun o => match o with Some (S _) => true | _ => false end) (map (fun x => Some (Z.to_nat x)) (zrange lo hi)) = true).
      { apply existsb_exists. exists (Some (Z.to_nat 1)). split; auto. apply in_map_iff. exists 1. split; auto. apply In_zrange. lia. }
      rewrite X. unfold zrange. replace (Z.to_nat (hi - lo)) with (S (Z.to_nat (hi - lo - 1))) by lia. cbn [seq map]. do 2 f_equal; try lia.
  - cbn [andb]. assert (X : existsb (fun o => match o with Some (S _) => true | _ => false end) (map (fun x => Some (Z.to_nat x)) (zrange lo hi)) = true).
    { apply existsb_exists. exists (Some (Z.to_nat lo)). split; [apply in_map_iff; exists lo; split; auto; apply In_zrange; lia|]. destruct (Z.to_nat lo) eqn:Q; auto. lia. }
    rewrite X. unfold zrange. replace (Z.to_nat (hi - lo)) with (S (Z.to_nat (hi - lo - 1))) by lia. cbn [seq map]. f_equal. lia.
Qed.

Lemma states_basic v z : v_B v = Some (gen_B (List.length (v_values v))) -> 0 <= z < nvals v -> states_of v z = [z].
Proof.
  intros HB R. unfold states_of. rewrite HB. destruct (Z.ltb_spec z 0); [lia|]. apply nth_error_nth with (d := []).
  rewrite gen_B_basic by (unfold nvals in R; lia). rewrite Z2Nat.id by lia. auto.
Qed.
Lemma states_pair v : v_B v = Some (gen_B (List.length (v_values v))) -> 2 <= nvals v -> states_of v (nvals v) = [0; 1].
Proof.
  intros HB R. unfold states_of, nvals in *. rewrite HB. destruct (Z.ltb_spec (Z.of_nat (List.length (v_values v))) 0); [lia|]. apply nth_error_nth with (d := []).
  rewrite Nat2Z.id. apply gen_B_pair. lia.
Qed.
Lemma lstate_range n flag d u z : d <= u -> (exists y, d <= y <= u /\ z = lstate n flag y) <-> lo_of n flag d u <= z <= hi_of n flag d u.
Proof.
  unfold lstate, lo_of, hi_of. intros. destruct flag; split.
  - intros (y & ? & ->). lia.
  - intros. exists (z + 1). lia.
  - intros (y & ? & ->). lia.
  - intros. exists (n - z). lia.
Qed.

(** * [bnb_sys] *)
Lemma avail_spec arcs mxs x : List.length x = List.length arcs ->
  exists sc, mapM (fun i => py_index arcs (Z.of_nat i)) (filter (fun i => nth i x 0 =? mxs) (seq 0 (List.length x))) = Ok sc /\
    (forall q, forallb (fun a => mem_str a sc) q = true <-> available arcs mxs x q).
Proof.
  intros L. set (is := filter _ _). assert (G : mapM (fun i => py_index arcs (Z.of_nat i)) is = Ok (map (fun i => nth i arcs "") is)).
  { apply mapM_ok. intros i Hi. apply filter_In in Hi as [Hi _]. apply in_seq in Hi. apply py_index_nth. apply nth_error_nth'. lia. }
  exists (map (fun i => nth i arcs "") is). split; [exact G|]. intros q. rewrite forallb_forall. unfold available.
  assert (Q : forall a, mem_str a (map (fun i => nth i arcs "") is) = true <-> exists i, nth_error arcs i = Some a /\ nth_error x i = Some mxs).
  { intros a. rewrite mem_str_In, in_map_iff. split.
    - intros (i & <- & Hi). apply filter_In in Hi as [Hi E]. apply in_seq in Hi. apply Z.eqb_eq in E. exists i. split; [apply nth_error_nth'; lia|].
      rewrite <- E. apply nth_error_nth'. lia.
    - intros (i & E1 & E2). exists i. split; [apply nth_error_nth; auto|]. apply filter_In. split.
      + apply in_seq. assert (i < List.length x)%nat by (apply nth_error_Some; congruence). lia.
      + apply Z.eqb_eq. apply nth_error_nth; auto. }
  split; intros H a Ha; [apply Q; auto|apply Q; auto].
Qed.

Lemma mapM_prefix {A} (l : list A) n : (n <= List.length l)%nat -> mapM (py_index l) (zrange 0 (Z.of_nat n)) = Ok (firstn n l).
Proof.
  intros H. unfold zrange. replace (Z.to_nat (Z.of_nat n - 0)) with n by lia. revert H.
  assert (G : forall m k, (k + m <= List.length l)%nat -> mapM (py_index l) (map (fun i => 0 + Z.of_nat i) (seq k m)) = Ok (firstn m (skipn k l))).
  { induction m as [|m IH]; intros k H; auto. cbn [seq map mapM]. destruct (nth_error l k) as [a|] eqn:E; [|apply nth_error_None in E; lia].
    replace (0 + Z.of_nat k) with (Z.of_nat k) by lia. rewrite (py_index_nth _ _ _ E). cbn [bind]. rewrite IH by lia. cbn [bind].
    destruct (nth_error_split l k E) as (l1 & l2 & -> & <-). rewrite !skipn_app, (skipn_all2 (n := S (List.length l1)) l1), (skipn_all2 (n := List.length l1) l1), Nat.sub_diag by lia.
    replace (S (List.length l1) - List.length l1)%nat with 1%nat by lia. reflexivity. }
  intros H. rewrite G by lia. reflexivity.
Qed.

Lemma bnb_sys_ok paths times arcs mxs x : (List.length times <= List.length paths)%nat -> List.length x = List.length arcs ->
  let n := List.length times in
  (exists i p t, nth_error (firstn n paths) i = Some p /\ nth_error (sort_desc qc_ltb times) i = Some t /\ available arcs mxs x p /\
     (forall j q, (j < i)%nat -> nth_error paths j = Some q -> ~ available arcs mxs x q) /\ bnb_sys paths times arcs mxs x = Ok (Z.of_nat i, VNum t, p)) \/
  ((forall q, In q (firstn n paths) -> ~ available arcs mxs x q) /\ bnb_sys paths times arcs mxs x = Ok (Z.of_nat n, VInf, [])).
Proof.
  intros Hl Hx n. unfold bnb_sys. assert (Ls : List.length (sort_desc qc_ltb times) = n) by (apply Permutation_length, sort_desc_perm).
  rewrite Ls, mapM_prefix by exact Hl. cbn [bind]. destruct (avail_spec arcs mxs x Hx) as (sc & Esc & Hsc). rewrite Esc. cbn [bind].
  destruct (find_idx _ (firstn n paths)) as [i|] eqn:E.
  - left. apply find_idx_some in E as (p & Ep & Av & Mn). assert (Li : (i < n)%nat).
    { assert (i < List.length (firstn n paths))%nat by (apply nth_error_Some; congruence). rewrite firstn_length in H. lia. }
    destruct (nth_error (sort_desc qc_ltb times) i) as [t|] eqn:Et; [|apply nth_error_None in Et; lia].
    exists i, p, t. split; [exact Ep|]. split; [exact Et|]. split; [apply Hsc, Av|]. split.
    + intros j q Hj Eq X. apply Hsc in X. rewrite (Mn j q Hj) in X; [discriminate|]. rewrite <- Eq.
      rewrite <- (firstn_skipn n paths) at 2. rewrite nth_error_app1; auto. rewrite firstn_length. lia.
    + assert (Ez : py_index (zrange 0 (Z.of_nat n)) (Z.of_nat i) = Ok (Z.of_nat i)).
      { apply py_index_nth. unfold zrange. replace (Z.to_nat (Z.of_nat n - 0)) with n by lia.
        rewrite (map_nth_error _ i (seq 0 n) (d := i)); auto. rewrite (nth_error_nth' _ 0%nat) by (rewrite seq_length; lia). rewrite seq_nth by lia. auto. }
      rewrite Ez. cbn [bind]. rewrite (py_index_nth _ _ _ Et), (py_index_nth _ _ _ Ep). reflexivity.
  - right. rewrite find_idx_none in E. split; auto. intros q Hq X. apply Hsc in X. rewrite (E q Hq) in X. discriminate.
Qed.

Lemma sorted_id (l : list Qc) : StronglySorted Qcle l -> sort_desc qc_ltb l = l.
Proof.
  induction l as [|a l IH]; intros H; auto. inversion H as [|? ? Hs Hf]; subst. unfold sort_desc in *. cbn [fold_right]. rewrite IH by auto.
  destruct l as [|b l]; auto. cbn [insert_desc]. inversion Hf; subst. destruct (qc_ltb b a) eqn:E; auto.
  apply qc_ltb_lt in E. exfalso. apply (Qclt_not_le _ _ E). auto.
Qed.

(** * [bnb_next_comp] *)
Lemma append_new_In l2 : forall l a, In a (append_new l l2) <-> In a l \/ In a l2.
Proof.
  induction l2 as [|x l2 IH]; intros l a; unfold append_new in *; cbn [fold_left]; [cbn; tauto|].
  rewrite IH. destruct (mem_str x l) eqn:E; [apply mem_str_In in E|rewrite in_app_iff]; cbn [In]; split; intros; try tauto.
  destruct H as [H|[H|H]]; subst; auto.
Qed.
Lemma comps_order_In paths arcs a : In a (comps_order paths arcs) <-> In a (List.concat paths) \/ In a arcs.
Proof.
  unfold comps_order. set (c := fold_left append_new paths []).
  assert (G : forall l, In a (fold_left append_new paths l) <-> In a l \/ In a (List.concat paths)).
  { induction paths as [|p ps IH]; intros l; cbn [fold_left List.concat]; [cbn; tauto|]. rewrite IH, append_new_In, in_app_iff. tauto. }
  rewrite append_new_In, filter_In. unfold c at 1. rewrite G. cbn [In]. split; [tauto|]. intros [H|H]; auto.
  destruct (mem_str a c) eqn:E; [|auto]. apply mem_str_In in E. unfold c in E. apply G in E. cbn [In] in E. tauto.
Qed.
Lemma next_comp_first paths arcs c rest : (In c (List.concat paths) \/ In c arcs) -> bnb_next_comp paths arcs (c :: rest) = Ok c.
Proof.
  intros H. unfold bnb_next_comp. cbn [List.length seq filter nth]. rewrite (proj2 (mem_str_In c _)) by (apply comps_order_In; auto). reflexivity.
Qed.
