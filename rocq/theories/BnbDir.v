(** The directory of the branch and bound: lemmas. *)
From Coq Require Import ZArith List String Bool Arith Lia Permutation DecimalString DecimalNat.
From Verif Require Import Py PyFacts VariFacts Brc SpecBrc Bnb SpecBnb BnbFacts.
Import ListNotations.
Open Scope string_scope.
Open Scope list_scope.

Lemma str_app_assoc (a b c : string) : ((a ++ b) ++ c = a ++ (b ++ c))%string.
Proof. induction a as [|x a IH]; cbn; auto. rewrite IH. auto. Qed.
Lemma str_app_inv_l (a b c : string) : (a ++ b = a ++ c)%string -> b = c.
Proof. induction a as [|x a IH]; cbn; auto. intros [= H]. auto. Qed.
Lemma str_app_len (a b : string) : String.length (a ++ b)%string = (String.length a + String.length b)%nat.
Proof. induction a as [|x a IH]; cbn; auto. Qed.
Lemma str_app_inv_r (a b c : string) : (a ++ c = b ++ c)%string -> a = b.
Proof.
  revert b. induction a as [|x a IH]; intros [|y b] H; cbn in *; auto.
  - exfalso. apply (f_equal String.length) in H. cbn in H. rewrite str_app_len in H. lia.
  - exfalso. apply (f_equal String.length) in H. cbn in H. rewrite str_app_len in H. lia.
  - injection H as -> H. f_equal. auto.
Qed.
Lemma prefix_app a b : String.prefix a (a ++ b) = true.
Proof. induction a as [|x a IH]; cbn; [destruct b; auto|]. destruct (Ascii.ascii_dec x x); congruence. Qed.
Lemma substring_all s : substring 0 (String.length s) s = s.
Proof. induction s as [|x s IH]; cbn; auto. rewrite IH. auto. Qed.
Lemma substring_app a b : substring (String.length a) (String.length b) (a ++ b) = b.
Proof. induction a as [|x a IH]; cbn; auto. apply substring_all. Qed.

Lemma to_uint_nonnil n : Nat.to_uint n <> Decimal.Nil.
Proof.
  intros E. pose proof (DecimalNat.Unsigned.of_to n) as H. rewrite E in H. cbn in H. subst n. cbn in E. discriminate.
Qed.
Lemma num_str_inj i j : num_str i = num_str j -> i = j.
Proof.
  unfold num_str. intros H. apply DecimalNat.Unsigned.to_uint_inj.
  apply (f_equal NilZero.uint_of_string) in H.
  rewrite !NilZero.usu in H by apply to_uint_nonnil. injection H. auto.
Qed.
Lemma dump_inj key i j : dump_name key i = dump_name key j -> i = j.
Proof.
  unfold dump_name. intros H. apply str_app_inv_l, str_app_inv_l, str_app_inv_l, str_app_inv_r, num_str_inj in H. auto.
Qed.
Lemma dump_glob key i : glob_match key (dump_name key i) = true.
Proof.
  unfold glob_match, dump_name. set (n := num_str i).
  replace ("sb_dump_" ++ key ++ "_" ++ n ++ ".json")%string with (("sb_dump_" ++ key ++ "_") ++ (n ++ ".json"))%string
    by (rewrite !str_app_assoc; auto).
  set (p := ("sb_dump_" ++ key ++ "_")%string). rewrite prefix_app. cbn [andb].
  rewrite str_app_len. replace (String.length p + String.length (n ++ ".json") - String.length p)%nat with (String.length (n ++ ".json")) by lia.
  rewrite substring_app. unfold has_suffix. rewrite str_app_len.
  replace (String.length n + String.length ".json" - String.length ".json")%nat with (String.length n) by lia.
  rewrite substring_app, String.eqb_refl, andb_true_r. apply Nat.leb_le. lia.
Qed.

Lemma dset_perm {A} (d : dict A) k v : NoDup (keys d) ->
  Permutation (dset d k v) ((k, v) :: filter (fun f => negb (String.eqb (fst f) k)) d).
Proof.
  induction d as [|[k' w] d IH]; cbn [dset filter fst keys map]; intros N; auto. inversion N as [|? ? N1 N2]; subst.
  destruct (String.eqb_spec k k') as [->|E].
  - rewrite String.eqb_refl. cbn [negb]. apply perm_skip. apply Permutation_refl'. symmetry.
    clear IH N. induction d as [|[k w'] d IH]; auto. cbn [filter fst]. destruct (String.eqb_spec k k') as [->|]; [exfalso; apply N1; left; auto|].
    cbn [negb]. f_equal. inversion N2; subst. apply IH; auto. intros X; apply N1; right; auto.
  - destruct (String.eqb_spec k' k) as [->|]; [congruence|]. cbn [negb]. rewrite (IH N2). apply perm_swap.
Qed.
Lemma dset_nodup {A} (d : dict A) k v : NoDup (keys d) -> NoDup (keys (dset d k v)).
Proof.
  intros N. assert (P := Permutation_map fst (dset_perm d k v N)). apply Permutation_sym in P.
  eapply Permutation_NoDup; [exact P|]. cbn [map fst]. constructor.
  - intros X. apply in_map_iff in X as ((k' & w) & E & X). cbn in E. subst k'. apply filter_In in X as [_ X]. cbn in X. rewrite String.eqb_refl in X. discriminate.
  - clear P. unfold keys in N. induction d as [|[k' w] d IH]; [constructor|]. inversion N as [|? ? N1 N2]; subst. cbn [filter fst].
    destruct (negb (String.eqb k' k)); auto. cbn [map fst]. constructor; auto. intros X. apply N1.
    apply in_map_iff in X as (y & E & X). apply filter_In in X as [X _]. cbn. rewrite <- E. apply in_map. auto.
Qed.

Definition unwritten (key : string) (i n : nat) (d : dir) : dir :=
  filter (fun f => negb (existsb (fun j => String.eqb (fst f) (dump_name key j)) (seq i n))) d.

Lemma filter_perm {A} (f : A -> bool) l l' : Permutation l l' -> Permutation (filter f l) (filter f l').
Proof.
  induction 1; cbn [filter]; auto.
  - destruct (f x); auto.
  - destruct (f x), (f y); auto. apply perm_swap.
  - eapply Permutation_trans; eauto.
Qed.
Lemma filter_filter {A} (f g : A -> bool) l : filter f (filter g l) = filter (fun x => g x && f x) l.
Proof. induction l as [|a l IH]; auto. cbn [filter]. destruct (g a); cbn [filter andb]; rewrite IH; auto. Qed.

Lemma write_perm key : forall cs i d, NoDup (keys d) ->
  Permutation (write key i cs d) (combine (map (dump_name key) (seq i (List.length cs))) cs ++ unwritten key i (List.length cs) d).
Proof.
  induction cs as [|c cs IH]; intros i d N.
  - cbn. unfold unwritten. cbn. apply Permutation_refl'. symmetry. induction d as [|a d IHd]; auto. cbn [filter]. f_equal.
    apply IHd. inversion N; auto.
  - cbn [write List.length seq map combine]. rewrite (IH (S i)) by (apply dset_nodup; auto).
    set (n := dump_name key i). unfold unwritten at 1.
    rewrite (filter_perm _ _ _ (dset_perm d n c N)). cbn [filter fst].
    assert (E : existsb (fun j => String.eqb n (dump_name key j)) (seq (S i) (List.length cs)) = false).
    { apply not_true_iff_false. intros X. apply existsb_exists in X as (j & Hj & E). apply String.eqb_eq in E. apply dump_inj in E.
      subst j. apply in_seq in Hj. lia. }
    rewrite E. cbn [negb]. rewrite filter_filter.
    rewrite <- Permutation_middle. cbn [app]. apply perm_skip, Permutation_app_head. apply Permutation_refl'.
    unfold unwritten. apply filter_ext. intros f. cbn [seq existsb]. rewrite negb_orb. auto.
Qed.

Lemma saved_perm d d' key : Permutation d d' -> Permutation (get_sb_saved d key) (get_sb_saved d' key).
Proof. intros P. unfold get_sb_saved. apply Permutation_flat_map. auto. Qed.
Lemma saved_app d d' key : get_sb_saved (d ++ d') key = get_sb_saved d key ++ get_sb_saved d' key.
Proof. unfold get_sb_saved. apply flat_map_app. Qed.
Lemma saved_new key cs : forall i, get_sb_saved (combine (map (dump_name key) (seq i (List.length cs))) cs) key = flat_map (filter complete) cs.
Proof.
  induction cs as [|c cs IH]; intros i; auto. cbn [List.length seq map combine]. unfold get_sb_saved in *. cbn [flat_map fst snd].
  rewrite dump_glob. f_equal. apply IH.
Qed.
Lemma saved_none d key : (forall f, In f d -> glob_match key (fst f) = false) -> get_sb_saved d key = [].
Proof.
  intros H. unfold get_sb_saved. induction d as [|f d IH]; auto. cbn [flat_map]. rewrite H by (left; auto). cbn [app].
  apply IH. intros; apply H; right; auto.
Qed.

Lemma saved_write key cs d : NoDup (keys d) ->
  Permutation (get_sb_saved (write key 0 cs d) key) (flat_map (filter complete) cs ++ get_sb_saved (unwritten key 0 (List.length cs) d) key).
Proof. intros N. rewrite (saved_perm _ _ _ (write_perm key cs 0 d N)). rewrite saved_app, saved_new. auto. Qed.

Lemma covered_perm l l' x : Permutation l l' -> covered l x = covered l' x.
Proof. intros P. unfold covered. apply Permutation_length, filter_perm, P. Qed.
