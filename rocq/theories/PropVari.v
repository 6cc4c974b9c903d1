(** Final theorems C01-C05: composite-state coding of variable.py.
    A Python set is a list without duplicates, compared by its elements.
    [mk_variable name values flag] is [Variable(name, values, B_flag)]. *)
From Coq Require Import ZArith List String Bool QArith Qcanon Sorting.Sorted Lia.
From Verif Require Import Py Num Vari VariFacts.
Import ListNotations.
Open Scope string_scope.
Open Scope Z_scope.
Open Scope list_scope.

(** Example variables: three states stored, and the same computed on the fly. *)
Definition ex_vals3 : list value := [VNum (qz 0); VNum (qz 1); VNum (qz 2)].
Definition ex_stored := mk_variable "x" ex_vals3 None.
Definition ex_fly := mk_variable "x" ex_vals3 (Some FFly).

(** C01: a set survives coding and decoding, in every storage mode *)
Theorem C01_set_roundtrip :
  forall name values flag s,
    NoDup s -> s <> [] ->
    (forall x, In x s -> 0 <= x < Z.of_nat (List.length values)) ->
    exists i s', v_get_state (mk_variable name values flag) s = Ok i /\
      0 <= i < 2 ^ Z.of_nat (List.length values) - 1 /\
      v_get_set (mk_variable name values flag) i = Ok s' /\
      (forall x, In x s' <-> In x s).
Proof. exact roundtrip_set. Qed.
Print Assumptions C01_set_roundtrip.

Example C01_set_roundtrip_ex :
  v_get_state ex_stored [2; 0] = Ok 4 /\ v_get_state ex_fly [2; 0] = Ok 4 /\
  v_get_set ex_stored 4 = Ok [0; 2] /\ v_get_set ex_fly 4 = Ok [0; 2].
Proof. vm_compute. repeat split. Qed.

(** C01: a code survives decoding and coding, in every storage mode *)
Theorem C01_code_roundtrip :
  forall name values flag i,
    0 <= i < 2 ^ Z.of_nat (List.length values) - 1 ->
    exists s, v_get_set (mk_variable name values flag) i = Ok s /\
      NoDup s /\ s <> [] /\ (forall x, In x s -> 0 <= x < Z.of_nat (List.length values)) /\
      v_get_state (mk_variable name values flag) s = Ok i.
Proof. exact roundtrip_code. Qed.
Print Assumptions C01_code_roundtrip.

Example C01_code_roundtrip_ex :
  0 <= 5 < 2 ^ Z.of_nat (List.length ex_vals3) - 1 /\
  v_get_set ex_fly 5 = Ok [1; 2] /\ v_get_state ex_fly [1; 2] = Ok 5.
Proof. vm_compute. repeat split; congruence. Qed.

(** C02: the storage mode never matters for a non-empty set (result or error) *)
Theorem C02_same_code :
  forall name values f1 f2 s,
    NoDup s -> s <> [] ->
    v_get_state (mk_variable name values f1) s = v_get_state (mk_variable name values f2) s.
Proof. exact modes_agree_state. Qed.
Print Assumptions C02_same_code.

Theorem C02_same_set :
  forall name values f1 f2 i,
    0 <= i ->
    v_get_set (mk_variable name values f1) i = v_get_set (mk_variable name values f2) i.
Proof. exact modes_agree_set. Qed.
Print Assumptions C02_same_set.

Theorem C02_code_out_of_range :
  forall name values flag i,
    2 ^ Z.of_nat (List.length values) - 1 <= i ->
    v_get_set (mk_variable name values flag) i = Err IndexError.
Proof. exact get_set_out_of_range. Qed.
Print Assumptions C02_code_out_of_range.

Theorem C02_set_out_of_range :
  forall name values flag s x,
    NoDup s -> In x s -> ~ (0 <= x < Z.of_nat (List.length values)) ->
    v_get_state (mk_variable name values flag) s = Err ValueError.
Proof. exact get_state_not_subset. Qed.
Print Assumptions C02_set_out_of_range.

Example C02_ex :
  v_get_state ex_stored [0; 1; 2] = Ok 6 /\ v_get_state ex_fly [0; 1; 2] = Ok 6 /\
  v_get_set ex_stored 7 = Err IndexError /\ v_get_set ex_fly 7 = Err IndexError /\
  v_get_state ex_stored [0; 3] = Err ValueError /\ v_get_state ex_fly [0; 3] = Err ValueError.
Proof. vm_compute. repeat split. Qed.

(** The two restrictions of C02 are needed: for the empty set and for negative
    codes the modes differ. *)
Theorem C02_empty_set_differs_refuted :
  exists name values,
    v_get_state (mk_variable name values None) [] = Err ValueError /\
    v_get_state (mk_variable name values (Some FFly)) [] = Ok 0.
Proof. exists "x", ex_vals3. vm_compute. split; reflexivity. Qed.
Print Assumptions C02_empty_set_differs_refuted.

Theorem C02_negative_code_differs_refuted :
  exists name values i s1 s2,
    i < 0 /\
    v_get_set (mk_variable name values None) i = Ok s1 /\
    v_get_set (mk_variable name values (Some FFly)) i = Ok s2 /\
    set_eqb s1 s2 = false.
Proof. exists "x", ex_vals3, (-1), [0; 1; 2], [2]. vm_compute. repeat split. Qed.
Print Assumptions C02_negative_code_differs_refuted.

(** C03: [s] is the set of positions of the ones of [vec] *)
Theorem C03_vector_code :
  forall name values flag vec s,
    (forall x, In x vec -> x = 0 \/ x = 1) ->
    List.length vec = List.length values ->
    NoDup s -> (forall i, In i s <-> 0 <= i /\ nth_error vec (Z.to_nat i) = Some 1) ->
    (find_state_from_vector vec = Ok (-1) <-> ~ In 1 vec) /\
    (In 1 vec -> find_state_from_vector vec = v_get_state (mk_variable name values flag) s).
Proof. exact vector_state. Qed.
Print Assumptions C03_vector_code.

Example C03_ex :
  find_state_from_vector [1; 0; 1] = Ok 4 /\ v_get_state ex_stored [0; 2] = Ok 4 /\
  find_state_from_vector [0; 0; 0] = Ok (-1).
Proof. vm_compute. repeat split. Qed.

(** C04: shape of the table *)
Theorem C04_table_size :
  forall n, Z.of_nat (List.length (gen_B n)) = 2 ^ Z.of_nat n - 1.
Proof. exact gen_B_length_Z. Qed.
Print Assumptions C04_table_size.

Theorem C04_table_has_every_subset_once :
  forall n s,
    NoDup s -> s <> [] -> (forall x, In x s -> 0 <= x < Z.of_nat n) ->
    exists i c, nth_error (gen_B n) i = Some c /\ (forall x, In x c <-> In x s) /\
      forall j d, nth_error (gen_B n) j = Some d -> (forall x, In x d <-> In x s) -> j = i.
Proof. exact table_complete. Qed.
Print Assumptions C04_table_has_every_subset_once.

Theorem C04_table_has_only_subsets :
  forall n i c, nth_error (gen_B n) i = Some c ->
    NoDup c /\ c <> [] /\ (forall x, In x c -> 0 <= x < Z.of_nat n).
Proof. exact table_entries. Qed.
Print Assumptions C04_table_has_only_subsets.

Theorem C04_basic_states_first :
  forall n i, (i < n)%nat -> nth_error (gen_B n) i = Some [Z.of_nat i].
Proof. exact gen_B_basic. Qed.
Print Assumptions C04_basic_states_first.

Example C04_ex : gen_B 3 = [[0]; [1]; [2]; [0; 1]; [0; 2]; [1; 2]; [0; 1; 2]].
Proof. reflexivity. Qed.

(** C04: the order of the codes.  Sets are compared by their number of elements, sets of equal size by
    their elements from the smallest on. *)
Fixpoint lex_lt (a b : list Z) : Prop :=
  match a, b with
  | x :: a', y :: b' => x < y \/ x = y /\ lex_lt a' b'
  | _, _ => False
  end.
Definition set_lt (a b : list Z) : Prop :=
  (List.length a < List.length b)%nat \/ List.length a = List.length b /\ lex_lt a b.

Lemma SSorted_app {A} (R : A -> A -> Prop) l m :
  StronglySorted R l -> StronglySorted R m -> (forall x y, In x l -> In y m -> R x y) -> StronglySorted R (l ++ m).
Proof.
  induction l as [|a l IH]; cbn; intros Hl Hm H; auto. inversion_clear Hl as [|? ? Hs Hf].
  constructor; [apply IH; auto|]. apply Forall_app. split; auto. apply Forall_forall. auto.
Qed.
Lemma SSorted_nth {A} (R : A -> A -> Prop) l i j a b :
  StronglySorted R l -> (i < j)%nat -> nth_error l i = Some a -> nth_error l j = Some b -> R a b.
Proof.
  intros H. revert i j. induction H as [|x l Hs IH Hf]; intros [|i] [|j] L Ha Hb; cbn in *; try lia; try discriminate.
  - injection Ha as <-. rewrite Forall_forall in Hf. eapply Hf, nth_error_In; eauto.
  - apply (IH i j); auto. lia.
Qed.
Lemma comb_lex l r : StronglySorted Z.lt l -> StronglySorted lex_lt (combinations l r).
Proof.
  intros H. revert r. induction H as [|a l Hs IH Hf]; intros [|r]; cbn; try solve [repeat constructor].
  apply SSorted_app; [|apply IH|].
  - specialize (IH r). induction IH as [|c cs Hcs IHc Hc]; cbn; constructor; auto.
    rewrite Forall_map. eapply Forall_impl; [|exact Hc]. cbn. auto.
  - intros x y Hx Hy. apply in_map_iff in Hx as (c & <- & _). apply combinations_spec in Hy as [Hy E].
    destruct y as [|b y]; [discriminate|]. left. rewrite Forall_forall in Hf. apply Hf. eapply sublist_In; eauto. left; auto.
Qed.
Lemma gen_B_sorted n : StronglySorted set_lt (gen_B n).
Proof.
  unfold gen_B. generalize 1%nat as k. assert (Z := zrange_sorted 0 (Z.of_nat n)). generalize dependent (zrange 0 (Z.of_nat n)). intros l Hl.
  induction n as [|n IH]; intros k; cbn; [constructor|]. apply SSorted_app; [|apply IH|].
  - assert (H := comb_lex l k Hl). assert (L : forall c, In c (combinations l k) -> List.length c = k) by (intros c Hc; apply combinations_spec in Hc; tauto).
    induction H as [|c cs Hcs IHc Hc]; constructor; [apply IHc; intros; apply L; right; auto|].
    rewrite Forall_forall in *. intros d Hd. right. split; [rewrite !L; auto; [right|left]; auto|auto].
  - intros x y Hx Hy. apply in_flat_map in Hy as (m & Hm & Hy). apply in_seq in Hm.
    apply combinations_spec in Hx as [_ Ex]. apply combinations_spec in Hy as [_ Ey]. left. lia.
Qed.

Theorem C04_code_order :
  forall name values flag i j a b,
    0 <= i < j ->
    v_get_set (mk_variable name values flag) i = Ok a ->
    v_get_set (mk_variable name values flag) j = Ok b -> set_lt a b.
Proof.
  intros name values flag i j a b H Ha Hb. rewrite get_set_table in Ha, Hb by lia.
  apply py_index_ok_nonneg in Ha; [|lia]. apply py_index_ok_nonneg in Hb; [|lia].
  eapply SSorted_nth; [apply gen_B_sorted| |exact Ha|exact Hb]. lia.
Qed.
Print Assumptions C04_code_order.
Example C04_code_order_ex :
  v_get_set ex_fly 2 = Ok [2] /\ v_get_set ex_fly 3 = Ok [0; 1] /\ v_get_set ex_fly 5 = Ok [1; 2] /\
  set_lt [2] [0; 1] /\ set_lt [0; 1] [1; 2].
Proof. repeat (split; [vm_compute; reflexivity|]). split; [left|right; split; [|left]]; cbn; lia. Qed.

(** C05: registering a composite state *)
Theorem C05_composite_state :
  forall v B states v' c,
    v_B v = Some B ->
    get_composite_state v states = Ok (v', c) ->
    exists B' e, v_B v' = Some B' /\ v_name v' = v_name v /\ v_values v' = v_values v /\
      (B' = B \/ (B' = B ++ [e] /\ forall d, In d B -> ~ (forall x, In x d <-> In x states))) /\
      (forall i d, nth_error B i = Some d -> nth_error B' i = Some d) /\
      0 <= c /\ nth_error B' (Z.to_nat c) = Some e /\ (forall x, In x e <-> In x states).
Proof. exact composite_state_spec. Qed.
Print Assumptions C05_composite_state.

Theorem C05_never_fails_with_table :
  forall v B states, v_B v = Some B -> exists v' c, get_composite_state v states = Ok (v', c).
Proof. exact composite_state_total. Qed.
Print Assumptions C05_never_fails_with_table.

Theorem C05_complete_table_unchanged :
  forall name values states,
    stores_B (List.length values) None = true ->
    states <> [] -> (forall x, In x states -> 0 <= x < Z.of_nat (List.length values)) ->
    exists c, get_composite_state (mk_variable name values None) states
              = Ok (mk_variable name values None, c).
Proof. exact composite_state_full. Qed.
Print Assumptions C05_complete_table_unchanged.

(** The set of states that is looked up or appended has no repeated element: a table of sets stays one,
    and the entry that is found has as many elements as there are different states. *)
Theorem C05_no_repeats :
  forall v B states v' c,
    v_B v = Some B -> (forall d, In d B -> NoDup d) ->
    get_composite_state v states = Ok (v', c) ->
    exists B' e, v_B v' = Some B' /\ (forall d, In d B' -> NoDup d) /\
      nth_error B' (Z.to_nat c) = Some e /\ NoDup e /\ (forall x, In x e <-> In x states) /\
      List.length e = List.length (nodup Z.eq_dec states).
Proof.
  intros v B states v' c HB ND H. destruct (composite_state_spec v B states v' c HB H) as (B' & e & H1 & _ & _ & _ & _ & _ & H7 & H8).
  assert (ND' : forall d, In d B' -> NoDup d).
  { unfold get_composite_state in H. rewrite HB in H. cbv zeta in H.
    destruct (py_list_index _ _) as [c'|]; cbn in H; [|discriminate]. injection H as <- _. cbn in H1.
    destruct (existsb _ _); injection H1 as <-; [auto|]. intros d Hd. apply in_app_or in Hd as [Hd|[<-|[]]]; [auto|apply py_set_NoDup]. }
  assert (NE : NoDup e) by (eapply ND', nth_error_In; eauto).
  exists B', e. repeat (split; [solve [auto]|]).
  apply Nat.le_antisymm; apply NoDup_incl_length; auto using NoDup_nodup; intros x Hx.
  - apply nodup_In, H8, Hx.
  - apply H8, (nodup_In Z.eq_dec), Hx.
Qed.
Print Assumptions C05_no_repeats.
Example C05_no_repeats_ex :
  let v := mkVar "y" ex_vals3 (Some [[0]; [1]; [2]]) None in
  (forall d, In d [[0]; [1]; [2]] -> NoDup d) /\
  get_composite_state v [2; 1; 2; 1] = Ok (mkVar "y" ex_vals3 (Some [[0]; [1]; [2]; [2; 1]]) None, 3).
Proof.
  cbv zeta. split; [|vm_compute; reflexivity]. intros d Hd. cbn in Hd.
  repeat (destruct Hd as [<-|Hd]; [constructor; [intros []|constructor]|]). destruct Hd.
Qed.

Example C05_ex :
  get_composite_state ex_stored [0; 2; 0] = Ok (ex_stored, 4) /\
  get_composite_state (mkVar "y" ex_vals3 (Some [[0]; [1]; [2]]) None) [2; 1]
  = Ok (mkVar "y" ex_vals3 (Some [[0]; [1]; [2]; [2; 1]]) None, 3).
Proof. vm_compute. repeat split. Qed.
