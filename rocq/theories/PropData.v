(** Further theorems for C80 and C106: the table of pf_map, columns of a CPM, tables of variables. *)
From Coq Require Import ZArith List String Bool Arith Lia QArith Qcanon.
From Verif Require Import Py Num Vari Cpm PyFacts VariFacts CpmFacts PfMap PropCpm SpecCpm.
Import ListNotations.
Open Scope string_scope.
Open Scope Z_scope.
Open Scope list_scope.

(** Point [n] handed to the interpolation has the magnitude number [n mod 9] of 5.0, 5.4, ...,
    8.2, the distance number [n / 9], and the entry in row [n / 11] and column [n mod 11] of the
    table (/repo/BNS_JT/demos/pf_map/batch.py 182-196). *)
Theorem C80_knots :
  List.length ep_knots = 99%nat /\
  forall n, (n < 99)%nat -> exists m r v row, nth_error ep_knots n = Some (m, r, v) /\
    (m == 5 + (4 # 10) * inject_Z (Z.of_nat (n mod 9)))%Q /\ nth_error [1; 2; 3; 5; 7; 10; 20; 30; 40; 50; 70]%Q (n / 9) = Some r /\
    nth_error ep_val (n / 11) = Some row /\ nth_error row (n mod 11) = Some v.
Proof.
  split; [reflexivity|]. intros n H. assert (I : In n (seq 0 99)) by (apply in_seq; lia). revert n H I.
  assert (G : Forall (fun n => exists m r v row, nth_error ep_knots n = Some (m, r, v) /\
    (m == 5 + (4 # 10) * inject_Z (Z.of_nat (n mod 9)))%Q /\ nth_error [1; 2; 3; 5; 7; 10; 20; 30; 40; 50; 70]%Q (n / 9) = Some r /\
    nth_error ep_val (n / 11) = Some row /\ nth_error row (n mod 11) = Some v) (seq 0 99)).
  { cbn [seq]. repeat (constructor; [do 4 eexists; split; [reflexivity|]; split; [reflexivity|]; split; [reflexivity|]; split; reflexivity|]). constructor. }
  rewrite Forall_forall in G. auto.
Qed.
Print Assumptions C80_knots.
(** sums of the rows and of the columns of the table, and of the rows with weights 0, ..., 10, in
    hundredths *)
Theorem C80_table_sums :
  let sum := fold_right Z.add 0 in let T := map (map (fun x => (Qnum x * 100 / Zpos (Qden x))%Z)) ep_val in
  Forall (fun x => Qden x = 100%positive) (List.concat ep_val) /\
  map sum T = [196; 201; 211; 190; 173; 173; 183; 197; 216] /\
  map (fun j => sum (map (fun row => nth j row 0) T)) (seq 0 11) = [151; 154; 154; 150; 148; 141; 125; 136; 159; 184; 238] /\
  map (fun row => sum (map (fun jx => fst jx * snd jx) (combine (zrange 0 11) row))) T = [876; 932; 1075; 1035; 990; 979; 1032; 1105; 1195].
Proof. cbv zeta. split; [repeat constructor|]. split; [reflexivity|]. split; reflexivity. Qed.
Print Assumptions C80_table_sums.

Lemma at_combine (vs : list variable) row i v : List.length row = List.length vs -> nth_error vs i = Some v -> In (v, at_ row i) (combine vs row).
Proof.
  unfold at_. revert row i. induction vs as [|w vs IH]; intros [|c row] [|i]; cbn; try discriminate; intros L E; [left; congruence|right; apply IH; auto].
Qed.
(** [Cpm.get_col]: every row with the codes of the named variables, in the order of the names.  It
    succeeds exactly for names of the CPM's variables without duplicates. *)
Theorem C106_get_col :
  forall M l, NoDup (names (c_vars M)) -> (forall row, In row (c_C M) -> List.length row = List.length (c_vars M)) ->
    (forall T, get_col M l = Ok T ->
       Forall2 (fun row t => Forall2 (fun n c => exists v, v_name v = n /\ In (v, c) (combine (c_vars M) row)) l t) (c_C M) T) /\
    ((exists T, get_col M l = Ok T) <-> NoDup l /\ incl l (names (c_vars M))).
Proof.
  intros M l N L. unfold get_col, get_col_ind.
  assert (X : nodup_names l = true <-> NoDup l).
  { split; [apply nodup_names_ok|]. intros H. unfold nodup_names. rewrite nodup_fixed_point by auto. apply Nat.eqb_refl. }
  assert (I : forall idx, mapM (name_index M) l = Ok idx -> Forall2 (fun n i => exists v, nth_error (c_vars M) i = Some v /\ v_name v = n) l idx).
  { clear X. induction l as [|n l IH]; intros idx; cbn [mapM]; [intros [= <-]; constructor|]. unfold name_index at 1.
    destruct (find_idx _ (c_vars M)) as [i|] eqn:E; cbn [bind]; [|discriminate]. destruct (mapM (name_index M) l) as [js|]; cbn [bind]; [|discriminate].
    intros [= <-]. constructor; [|auto]. apply find_idx_some in E as (v & E1 & E2 & _). exists v. split; auto. apply String.eqb_eq in E2. auto. }
  split.
  - destruct (nodup_names l); cbn [bind]; [|discriminate]. destruct (mapM (name_index M) l) as [idx|]; cbn [bind]; [|discriminate].
    specialize (I idx eq_refl). intros T [= <-]. clear X N. induction (c_C M) as [|row C IH]; [constructor|]. cbn [map]. constructor; [|apply IH; intros; apply L; right; auto].
    specialize (L row (or_introl eq_refl)). clear -I L. unfold cols. induction I as [|n i l idx (v & H1 & H2) I IH]; cbn [map]; constructor; auto.
    exists v. split; auto. apply at_combine; auto.
  - split.
    + intros (T & E). destruct (nodup_names l) eqn:D; cbn [bind] in E; [|discriminate]. split; [apply X; auto|].
      destruct (mapM (name_index M) l) as [idx|]; cbn [bind] in E; [|discriminate]. specialize (I idx eq_refl). clear -I.
      induction I as [|n i l idx (v & H1 & H2) I IH]; [intros x []|]. intros x [<-|Hx]; auto. rewrite <- H2. apply in_map. eapply nth_error_In; eauto.
    + intros [H1 H2]. apply X in H1. rewrite H1. clear X H1 I N L. assert (G : exists idx, mapM (name_index M) l = Ok idx).
      { induction l as [|n l IH]; [exists []; auto|]. cbn [mapM]. unfold name_index at 1.
        destruct (find_idx _ (c_vars M)) as [i|] eqn:E.
        - cbn [bind]. destruct IH as (idx & ->); [intros x Hx; apply H2; right; auto|]. cbn [bind]. eauto.
        - exfalso. assert (Hn := H2 n (or_introl eq_refl)). apply in_map_iff in Hn as (v & <- & Hv). apply (proj1 (find_idx_none _ _) E) in Hv. rewrite String.eqb_refl in Hv. discriminate. }
      destruct G as (idx & ->). cbn [bind]. eauto.
Qed.
Print Assumptions C106_get_col.
Example C106_get_col_ex :
  NoDup (names (c_vars Ms)) /\ (forall row, In row (c_C Ms) -> List.length row = List.length (c_vars Ms)) /\
  names (c_vars Ms) = ["s"; "x"; "y"] /\ (exists row rows t T, c_C Ms = row :: rows /\ get_col Ms ["y"; "s"] = Ok (t :: T) /\ t = [nth 2 row 0; nth 0 row 0]) /\
  get_col Ms ["x"; "x"] = Err AssertionError /\ get_col Ms ["z"] = Err ValueError.
Proof.
  split; [apply nodup_names_ok; vm_compute; reflexivity|]. split; [intros row H; vm_compute in H; repeat (destruct H as [<-|H]; [reflexivity|]); destruct H|].
  split; [reflexivity|]. split; [do 4 eexists; split; [reflexivity|]; split; [vm_compute; reflexivity|reflexivity]|]. split; reflexivity.
Qed.

(** [Variable.update_B]: a table that is given and not empty is taken as it is; otherwise the variable
    is as if new, with a table of all subsets for one to six values unless the flag is 'fly', for more
    values only if the flag is 'store'. *)
Theorem C106_update_B :
  forall v val, v_name (update_B v val) = v_name v /\ v_values (update_B v val) = v_values v /\ v_flag (update_B v val) = v_flag v /\
    (forall B, val = Some B -> B <> [] -> v_B (update_B v val) = Some B) /\
    (val = None \/ val = Some [] -> update_B v val = mk_variable (v_name v) (v_values v) (v_flag v)) /\
    (val = None \/ val = Some [] ->
       (v_B (update_B v val) <> None <-> v_values v <> [] /\ (v_flag v = Some FStore \/ (List.length (v_values v) <= 6)%nat /\ v_flag v = None))).
Proof.
  intros v val. split; [destruct val as [[|]|]; reflexivity|]. split; [destruct val as [[|]|]; reflexivity|]. split; [destruct val as [[|]|]; reflexivity|].
  split; [intros B -> H; destruct B; [congruence|reflexivity]|]. split; [intros [-> | ->]; reflexivity|].
  intros E. assert (U : v_B (update_B v val) = if stores_B (List.length (v_values v)) (v_flag v) then Some (gen_B (List.length (v_values v))) else None) by (destruct E as [-> | ->]; reflexivity).
  rewrite U. unfold stores_B. destruct (v_values v) as [|x l]; [cbn; split; [congruence|intros [H _]; congruence]|].
  cbn [List.length]. change (0 <? S (List.length l))%nat with true. cbn [andb].
  destruct (Nat.leb_spec (S (List.length l)) 6), (v_flag v) as [[|]|]; cbn; split; intros X; try congruence; try (split; [discriminate|tauto]); try (split; [discriminate|right; split; [lia|auto]]);
    destruct X as [_ [X|[X1 X2]]]; try discriminate; lia.
Qed.
Print Assumptions C106_update_B.
Example C106_update_B_ex :
  v_B (update_B (mkVar "x" [VStr "a"; VStr "b"] None None) None) = Some [[0]; [1]; [0; 1]] /\
  v_B (update_B (mkVar "x" [VStr "a"; VStr "b"] None (Some FFly)) (Some [])) = None /\
  v_B (update_B (mkVar "x" [VStr "a"; VStr "b"] None (Some FFly)) (Some [[1]])) = Some [[1]].
Proof. auto. Qed.
