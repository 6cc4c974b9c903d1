(** C122: comparisons of variables and branches. *)
From Coq Require Import ZArith NArith List String Ascii Bool Arith Lia QArith Qcanon.
From Verif Require Import Py PyFacts Num Vari Brc BrcRules Compare.
Import ListNotations.
Open Scope string_scope.
Open Scope Z_scope.
Open Scope list_scope.

(** * What equality and order should be *)
Definition called (o : obj) : option string := match o with OVar v => Some (v_name v) | OStr s => Some s | _ => None end.
Definition same_map (d e : dict Z) : Prop := forall k, dfind d k = dfind e k.
Definition same (a b : obj) : Prop :=
  (exists n, called a = Some n /\ called b = Some n) \/
  (exists q, a = ONum q /\ b = ONum q) \/
  (exists x y, a = OBr x /\ b = OBr y /\ same_map (b_down x) (b_down y) /\ same_map (b_up x) (b_up y) /\
     b_down_state x = b_down_state y /\ b_up_state x = b_up_state y /\ b_p x = b_p y).
(** no key twice *)
Definition proper (o : obj) : Prop := match o with OBr b => NoDup (keys (b_down b)) /\ NoDup (keys (b_up b)) | _ => True end.
(** lexicographic order of strings *)
Definition before (a b : string) : Prop :=
  exists p, (a = p /\ exists c r, b = (p ++ String c r)%string) \/
    exists c r c' r', a = (p ++ String c r)%string /\ b = (p ++ String c' r')%string /\ (N_of_ascii c < N_of_ascii c')%N.

Lemma st_eqb_eq a b : st_eqb a b = true <-> a = b.
Proof. destruct a, b; cbn; split; congruence. Qed.
Lemma dict_eqb_same d e : NoDup (keys d) -> NoDup (keys e) -> (dict_eqb d e = true <-> same_map d e).
Proof.
  intros Nd Ne. split.
  - intros H k. destruct (dfind d k) as [v|] eqn:E; [symmetry; apply (dict_eqb_find _ _ _ _ H E)|].
    destruct (dfind e k) as [v|] eqn:F; auto. rewrite (dict_eqb_find_rev _ _ _ _ Nd H F) in E. discriminate.
  - intros H. unfold dict_eqb. apply andb_true_iff. split.
    + assert (X : forall a b : dict Z, NoDup (keys a) -> same_map a b -> (List.length (keys a) <= List.length (keys b))%nat).
      { intros a b Na S. apply NoDup_incl_length; auto. intros k I. apply dfind_keys in I as [v E]. apply dfind_keys. exists v. rewrite <- S. exact E. }
      pose proof (X d e Nd H) as A. pose proof (X e d Ne (fun k => eq_sym (H k))) as B. unfold keys in A, B. rewrite !map_length in A, B. apply Nat.eqb_eq. lia.
    + apply forallb_forall. intros [k v] I. cbn [fst snd]. rewrite <- H, (In_dfind _ _ _ Nd I). apply Z.eqb_refl.
Qed.

(** A comparison counts as true exactly for the same names, the same numbers, the same branches. *)
Theorem C122_equal : forall a b, proper a -> proper b -> (true_in_if (py_eq a b) = true <-> same a b).
Proof.
  intros a b Pa Pb. split.
  - intros H. destruct a as [v|s|x|q], b as [w|t|y|r]; cbn in H; try discriminate.
    + apply String.eqb_eq in H. left. exists (v_name v). cbn. split; congruence.
    + apply String.eqb_eq in H. left. exists (v_name v). cbn. split; congruence.
    + apply String.eqb_eq in H. left. exists s. cbn. split; congruence.
    + apply String.eqb_eq in H. left. exists s. cbn. split; congruence.
    + rewrite !andb_true_iff in H. destruct H as (H1 & H2 & H3 & H4 & H5 & _). cbn in Pa, Pb. right. right. exists x, y.
      apply dict_eqb_same in H1; try tauto. apply dict_eqb_same in H2; try tauto. apply st_eqb_eq in H3, H4. apply qc_eqb_eq in H5. auto 8.
    + apply qc_eqb_eq in H. right. left. exists q. split; congruence.
  - intros [(n & Ea & Eb)|[(q & -> & ->)|(x & y & -> & -> & H1 & H2 & H3 & H4 & H5)]].
    + destruct a as [v|s|x|q], b as [w|t|y|r]; cbn in *; try discriminate; apply String.eqb_eq; congruence.
    + cbn. apply qc_eqb_eq. reflexivity.
    + cbn in *. rewrite !andb_true_iff. rewrite !dict_eqb_same by tauto. rewrite !st_eqb_eq, qc_eqb_eq. auto 8.
Qed.
Print Assumptions C122_equal.

Lemma same_refl a : same a a.
Proof.
  destruct a as [v|s|x|q].
  - left. exists (v_name v). auto.
  - left. exists s. auto.
  - right. right. exists x, x. unfold same_map. auto 8.
  - right. left. exists q. auto.
Qed.
Lemma same_sym a b : same a b -> same b a.
Proof.
  intros [(n & A & B)|[(q & A & B)|(x & y & A & B & H1 & H2 & H3 & H4 & H5)]].
  - left. exists n. auto.
  - right. left. exists q. auto.
  - right. right. exists y, x. unfold same_map in *. repeat split; auto.
Qed.
Lemma same_trans a b c : same a b -> same b c -> same a c.
Proof.
  intros [(n & A & B)|[(q & A & B)|(x & y & A & B & H1 & H2 & H3 & H4 & H5)]] [(n' & A' & B')|[(q' & A' & B')|(x' & y' & A' & B' & H1' & H2' & H3' & H4' & H5')]];
    subst; cbn in *; try discriminate.
  - left. exists n. split; congruence.
  - right. left. exists q. split; congruence.
  - injection A' as <-. right. right. exists x, y'. unfold same_map in *. split; auto. split; auto. split; [intros k; rewrite H1; auto|]. split; [intros k; rewrite H2; auto|]. repeat split; congruence.
Qed.
(** So it is an equivalence, and [!=] is its negation. *)
Theorem C122_relation : forall a b c, proper a -> proper b -> proper c ->
  true_in_if (py_eq a a) = true /\ true_in_if (py_eq a b) = true_in_if (py_eq b a) /\
  (true_in_if (py_eq a b) = true -> true_in_if (py_eq b c) = true -> true_in_if (py_eq a c) = true) /\ (py_ne a b = true <-> ~ same a b).
Proof.
  intros a b c Pa Pb Pc. split; [apply C122_equal; auto; apply same_refl|]. split.
  - apply eq_true_iff_eq. rewrite !C122_equal by auto. split; apply same_sym.
  - split; [rewrite !C122_equal by auto; apply same_trans|]. unfold py_ne. rewrite negb_true_iff, <- not_true_iff_false, C122_equal by auto. tauto.
Qed.
Print Assumptions C122_relation.

(** Equal objects that have a hash have the same; branches have none. *)
Theorem C122_hash : forall hs hn a b x y, py_hash hs hn a = Ok x -> py_hash hs hn b = Ok y -> true_in_if (py_eq a b) = true -> x = y.
Proof.
  intros hs hn a b x y Ha Hb H. destruct a as [v|s|z|q], b as [w|t|z'|r]; cbn in *; try discriminate; injection Ha as <-; injection Hb as <-;
    try (apply String.eqb_eq in H; congruence). apply qc_eqb_eq in H. congruence.
Qed.
Print Assumptions C122_hash.
Theorem C122_no_hash : forall hs hn o, (exists e, py_hash hs hn o = Err e) <-> exists b, o = OBr b.
Proof. intros hs hn o. split; [intros [e E]; destruct o; cbn in E; try discriminate; eauto|intros [b ->]; cbn; eauto]. Qed.
Print Assumptions C122_no_hash.

(** So a dictionary whose keys are variables can be asked for a variable of the same name or for the name: it gives the
    first entry of that name. *)
Theorem C122_get : forall (A : Type) hs hn (d : list (obj * A)) x n, called x = Some n -> (forall k a, In (k, a) d -> exists m, called k = Some m) ->
  hash_get hs hn d x = Ok (match find (fun e => match called (fst e) with Some m => String.eqb m n | None => false end) d with Some e => Some (snd e) | None => None end).
Proof.
  intros A hs hn d x n Cx Hd. unfold hash_get. assert (Hx : py_hash hs hn x = Ok (hs n)) by (destruct x; cbn in *; congruence). rewrite Hx. cbn [bind].
  set (step := fun (found : option A) (e : obj * A) => _).
  assert (F : forall l a, foldM step l (Some a) = Ok (Some a)) by (induction l as [|e l IH]; intros a; cbn; auto).
  induction d as [|[k a] d IH]; [reflexivity|]. cbn [foldM find fst snd]. destruct (Hd k a (or_introl eq_refl)) as (m & Ck). rewrite Ck.
  assert (S : step None (k, a) = Ok (if String.eqb m n then Some a else None)).
  { unfold step. cbn [fst snd]. assert (Hk : py_hash hs hn k = Ok (hs m)) by (destruct k; cbn in *; congruence). rewrite Hk. cbn [bind]. f_equal.
    replace (true_in_if (py_eq k x)) with (String.eqb m n).
    - destruct (String.eqb_spec m n) as [->|]; [rewrite Z.eqb_refl; auto|rewrite andb_false_r; auto].
    - apply eq_true_iff_eq. rewrite C122_equal by (destruct k, x; cbn in *; try discriminate; auto). rewrite String.eqb_eq. split.
      + intros ->. left. exists n. auto.
      + intros [(q & A1 & A2)|[(q & -> & _)|(y & z & -> & _)]]; [congruence|discriminate|discriminate]. }
  rewrite S. cbn [bind]. destruct (String.eqb m n); [apply F|]. apply IH. intros k' a' I. apply (Hd k' a'). right. exact I.
Qed.
Print Assumptions C122_get.
(** The same for lists: a variable or a name is found among variables by its name. *)
Theorem C122_in : forall x l n, called x = Some n -> (forall k, In k l -> exists m, called k = Some m) -> (py_in x l = true <-> exists k, In k l /\ called k = Some n).
Proof.
  intros x l n Cx Hl. unfold py_in. rewrite existsb_exists. split.
  - intros (k & I & H). exists k. split; auto. destruct (Hl k I) as (m & Ck). rewrite C122_equal in H by (destruct k, x; cbn in *; try discriminate; auto).
    destruct H as [(q & A1 & A2)|[(q & -> & _)|(y & z & -> & _)]]; [congruence|discriminate|discriminate].
  - intros (k & I & H). exists k. split; auto. apply C122_equal; [destruct k; cbn in *; try discriminate; auto|destruct x; cbn in *; try discriminate; auto|]. left. exists n. auto.
Qed.
Print Assumptions C122_in.

(** * Order *)
Lemma ascii_cmp c d : match Ascii.compare c d with Lt => (N_of_ascii c < N_of_ascii d)%N | Eq => c = d | Gt => (N_of_ascii d < N_of_ascii c)%N end.
Proof.
  unfold Ascii.compare. destruct (N.compare_spec (N_of_ascii c) (N_of_ascii d)) as [E|E|E]; auto.
  rewrite <- (ascii_N_embedding c), <- (ascii_N_embedding d), E. reflexivity.
Qed.
Lemma ltb_before a b : String.ltb a b = true <-> before a b.
Proof.
  unfold String.ltb. revert b. induction a as [|c a IH]; intros b.
  - destruct b as [|d b]; cbn.
    + split; [discriminate|]. intros (p & [(<- & c & r & E)|(c & r & c' & r' & E & _)]); [discriminate|destruct p; discriminate].
    + split; auto. intros _. exists "". left. split; auto. exists d, b. reflexivity.
  - destruct b as [|d b]; cbn.
    + split; [discriminate|]. intros (p & [(<- & c' & r & E)|(c1 & r & c' & r' & _ & E & _)]); [discriminate|destruct p; discriminate].
    + pose proof (ascii_cmp c d) as X. destruct (Ascii.compare c d).
      * subst d. rewrite IH. split.
        -- intros (p & [(-> & c' & r & ->)|(c1 & r & c' & r' & -> & -> & L)]); exists (String c p); [left; split; auto; exists c', r; auto|right; exists c1, r, c', r'; auto].
        -- intros (p & [(<- & c' & r & E)|(c1 & r & c' & r' & E1 & E2 & L)]).
           ++ cbn in E. injection E as E. exists a. left. split; auto. exists c', r. exact E.
           ++ destruct p as [|e p]; cbn in E1, E2; inversion E1; inversion E2; subst; [lia|]. exists p. right. exists c1, r, c', r'. auto.
      * split; auto. intros _. exists "". right. exists c, a, d, b. auto.
      * split; [discriminate|]. intros (p & [(<- & c' & r & E)|(c1 & r & c' & r' & E1 & E2 & L)]); exfalso.
        -- cbn in E. inversion E. subst. lia.
        -- destruct p as [|e p]; cbn in E1, E2; inversion E1; inversion E2; subst; lia.
Qed.
Lemma before_trans a b c : before a b -> before b c -> before a c.
Proof.
  rewrite <- !ltb_before. unfold String.ltb. revert b c. induction a as [|x a IH]; intros [|y b] [|z c]; cbn; try congruence; try discriminate; auto.
  pose proof (ascii_cmp x y) as A. pose proof (ascii_cmp y z) as B. pose proof (ascii_cmp x z) as C.
  destruct (Ascii.compare x y), (Ascii.compare y z), (Ascii.compare x z); subst; intros H1 H2; try discriminate; auto; try lia. apply (IH b c); auto.
Qed.
(** Variables are ordered by name, strictly and totally up to equality; comparing with anything else fails. *)
Theorem C122_order : forall u v w,
  (var_lt u (OVar v) = Ok true <-> before (v_name u) (v_name v)) /\
  var_lt u (OVar u) = Ok false /\
  (var_lt u (OVar v) = Ok true -> var_lt v (OVar w) = Ok true -> var_lt u (OVar w) = Ok true) /\
  (var_lt u (OVar v) = Ok true -> var_lt v (OVar u) = Ok false) /\
  (true_in_if (py_eq (OVar u) (OVar v)) = true \/ var_lt u (OVar v) = Ok true \/ var_lt v (OVar u) = Ok true) /\
  (true_in_if (py_eq (OVar u) (OVar v)) = true -> var_lt u (OVar w) = var_lt v (OVar w) /\ var_lt w (OVar u) = var_lt w (OVar v)) /\
  (forall o, (forall x, o <> OVar x) -> var_lt u o = Err AttributeError).
Proof.
  intros u v w. cbn [var_lt py_eq var_eq true_in_if]. set (a := v_name u). set (b := v_name v). set (c := v_name w).
  assert (I : forall x y, @Ok bool x = Ok y <-> x = y) by (intros; split; [injection 1; auto|intros ->; auto]).
  assert (As : forall x y, String.ltb x y = true -> String.ltb y x = false).
  { intros x y. unfold String.ltb. rewrite (String.compare_antisym y x). destruct (String.compare x y); cbn; congruence. }
  split; [rewrite I; apply ltb_before|]. split; [f_equal; destruct (String.ltb a a) eqn:E; auto; rewrite <- E; apply As; auto|].
  split; [rewrite !I, !ltb_before; apply before_trans|]. split; [rewrite !I; apply As|]. split.
  { destruct (String.eqb_spec a b) as [E|N]; [auto|right]. destruct (String.ltb a b) eqn:L; [left; auto|right]. f_equal. unfold String.ltb in *.
    rewrite (String.compare_antisym b a). destruct (String.compare a b) eqn:C; cbn; auto; try discriminate. apply String.compare_eq_iff in C. contradiction. }
  split; [intros E; apply String.eqb_eq in E; rewrite E; auto|]. intros o H. destruct o; cbn; auto. destruct (H v0). reflexivity.
Qed.
Print Assumptions C122_order.

(** * What does not hold *)
(** A comparison need not return a truth value: with a branch on either side and anything else on the other it is None. *)
Theorem C122_bool_refuted : forall a b, py_eq a b = PNone <-> ((exists x, a = OBr x) /\ ~ (exists y, b = OBr y)) \/ (~ (exists x, a = OBr x) /\ (exists y, b = OBr y)).
Proof.
  intros a b. split.
  - intros H. destruct a as [v|s|x|q], b as [w|t|y|r]; cbn in H; try discriminate.
    all: first [left; split; [eexists; reflexivity|intros [z E]; discriminate]|right; split; [intros [z E]; discriminate|eexists; reflexivity]].
  - intros [[[x ->] N]|[N [y ->]]]; [destruct b; auto; destruct N; eauto|destruct a; auto; destruct N; eauto].
Qed.
Print Assumptions C122_bool_refuted.
(** Equal variables need not have the same states. *)
Theorem C122_values_refuted : ~ (forall v w, true_in_if (py_eq (OVar v) (OVar w)) = true -> v_values v = v_values w).
Proof. intros H. specialize (H (mk_variable "x" [VStr "f"] None) (mk_variable "x" [VStr "f"; VStr "s"] None) eq_refl). discriminate. Qed.
Print Assumptions C122_values_refuted.

Definition xa : variable := mk_variable "a" [VStr "f"; VStr "s"] None.
Definition xb : variable := mk_variable "b" [VStr "f"; VStr "s"] None.
Definition br1 : branch := mkBr [("a", 0); ("b", 1)] [("a", 1); ("b", 1)] F_ S_ (Q2Qc (1 # 2)).
Definition br2 : branch := mkBr [("b", 1); ("a", 0)] [("a", 1); ("b", 1)] F_ S_ (Q2Qc (1 # 2)).
Definition br3 : branch := mkBr [("b", 1); ("a", 0)] [("a", 1); ("b", 1)] F_ S_ (Q2Qc (1 # 3)).
Example C122_ex : proper (OBr br1) /\ proper (OBr br2) /\ py_eq (OBr br1) (OBr br2) = PBool true /\ py_eq (OBr br1) (OBr br3) = PBool false /\
  py_eq (OVar xa) (OStr "a") = PBool true /\ py_eq (OStr "a") (OVar xb) = PBool false /\ py_eq (OVar xa) (OBr br1) = PNone /\ py_ne (OVar xa) (OBr br1) = true /\
  hash_get (fun s => Z.of_nat (String.length s)) (fun _ => 0) [(OVar xb, 1); (OVar xa, 2)] (OStr "a") = Ok (Some 2) /\
  py_in (OStr "b") [OVar xa; OVar xb] = true /\ var_lt xa (OVar xb) = Ok true /\ var_lt xa (OStr "b") = Err AttributeError.
Proof.
  split; [split; cbn; repeat constructor; cbn; intuition discriminate|]. split; [split; cbn; repeat constructor; cbn; intuition discriminate|].
  repeat split; vm_compute; reflexivity.
Qed.
