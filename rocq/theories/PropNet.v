(** Final theorems about network traversals (C36, C37). *)
From Coq Require Import ZArith List String Bool Arith Lia Permutation Relations Sorted QArith Qcanon.
From Verif Require Import Py PyFacts Num Vari VariFacts Cpm CpmFacts SpecCpm Net SpecNet NetFacts.
Import ListNotations.
Open Scope string_scope.
Open Scope list_scope.

(** * C36 *)

(** [get_inf_vars] returns exactly the queried variables and their ancestors, or
    raises KeyError because one of them has no CPM.  The loop always ends: those
    are the only outcomes, on cyclic networks too.  "Without duplicates" needs a
    query without duplicates. *)
Theorem C36_ancestors_partial :
  forall cpms varis ord,
    ((forall v, relevant cpms varis v -> dfind cpms v <> None) ->
       exists out, get_inf_vars cpms varis ord = Ok out /\
         (forall x, In x out <-> relevant cpms varis x) /\ (NoDup varis -> NoDup out)) /\
    ((exists v, relevant cpms varis v /\ dfind cpms v = None) -> get_inf_vars cpms varis ord = Err KeyError).
Proof.
  intros cpms varis ord. destruct (inf_main cpms varis ord) as [(out & E & H1 & H2 & H3 & _)|(E & v & Hv & Hn)].
  - split; [intros _; exists out; auto|]. intros (v & Hv & Hn). exfalso. apply (H2 v); auto. apply H1. auto.
  - split; [|auto]. intros H. exfalso. apply (H v); auto.
Qed.
Print Assumptions C36_ancestors_partial.

Theorem C36_terminates : forall cpms varis ord, get_inf_vars cpms varis ord <> Err OutOfFuel.
Proof. intros cpms varis ord. destruct (inf_main cpms varis ord) as [(out & E & _)|(E & _)]; congruence. Qed.
Print Assumptions C36_terminates.

(** with an elimination order the result follows it; names outside it come last *)
Theorem C36_sorted :
  forall cpms varis o out, get_inf_vars cpms varis (Some o) = Ok out ->
    forall l1 x l2 y l3, out = l1 ++ x :: l2 ++ y :: l3 ->
      (In y o -> exists o1 o2, o = o1 ++ x :: o2 /\ ~ In y o1 /\ In y (x :: o2)).
Proof.
  intros cpms varis o out E l1 x l2 y l3 -> Hy.
  destruct (inf_main cpms varis (Some o)) as [(out & E' & _ & _ & _ & S)|(E' & _)]; [|congruence].
  rewrite E in E'. injection E' as <-. specialize (S o eq_refl).
  assert (L : (ord_inf o x <= ord_inf o y)%nat).
  { clear -S. induction l1 as [|z l1 IH]; cbn in S; apply StronglySorted_inv in S as [S F]; [|auto].
    rewrite Forall_forall in F. apply F, in_app_iff. right. left. auto. }
  apply ord_inf_spec in Hy as Hy'. assert (Hx : In x o) by (apply ord_inf_spec; lia).
  unfold ord_inf in L. destruct (find_idx_in (String.eqb x) o x Hx (String.eqb_refl x)) as [i Ei].
  destruct (find_idx_in (String.eqb y) o y Hy (String.eqb_refl y)) as [j Ej]. rewrite Ei, Ej in L.
  apply find_idx_some in Ei as (x' & Hi & Ex & _). apply String.eqb_eq in Ex. subst x'.
  apply find_idx_some in Ej as (y' & Hj & Ey & Hmin). apply String.eqb_eq in Ey. subst y'.
  destruct (nth_error_split _ _ Hi) as (o1 & o2 & -> & Hl). exists o1, o2. split; auto.
  assert (N : ~ In y o1).
  { intros X. apply In_nth_error in X as [k Hk]. assert (K : (k < List.length o1)%nat) by (apply nth_error_Some; congruence).
    assert (F : String.eqb y y = false).
    { apply (Hmin k); [lia|]. rewrite nth_error_app1; auto. }
    rewrite String.eqb_refl in F. discriminate. }
  split; auto. apply in_app_iff in Hy as [Hy|Hy]; tauto.
Qed.
Print Assumptions C36_sorted.

(** a name queried twice is returned twice *)
Definition nv (n : string) : variable := mk_variable n [VNum 0%Qc; VNum 1%Qc] None.
Definition nM (c : string) (ps : list string) : cpm := mkCpm (nv c :: map nv ps) 1 [] [].
Theorem C36_duplicates_refuted :
  exists cpms varis out, get_inf_vars cpms varis None = Ok out /\ ~ NoDup out.
Proof.
  exists [("a", nM "a" [])], ["a"; "a"], ["a"; "a"]. split; [reflexivity|].
  intros H. inversion H as [|? ? X _]. apply X. left. auto.
Qed.
Print Assumptions C36_duplicates_refuted.

(** d -> c -> {a, b}, b -> a, and an unrelated e; also a cyclic network *)
Definition ex_net : dict cpm :=
  [("a", nM "a" []); ("b", nM "b" ["a"]); ("c", nM "c" ["a"; "b"]); ("d", nM "d" ["c"]); ("e", nM "e" ["a"])].
Lemma rel_step cpms v p x M : dfind cpms v = Some M -> In p (names (parents M)) ->
  relevant cpms [p] x -> relevant cpms [v] x.
Proof.
  intros H1 H2 (w & [<- |[]] & R). exists v. split; [left; auto|]. econstructor; [|exact R]. exists M. auto.
Qed.
Example C36_ancestors_partial_ex :
  NoDup ["d"] /\ (forall v, relevant ex_net ["d"] v -> dfind ex_net v <> None) /\ relevant ex_net ["d"] "a" /\ ~ relevant ex_net ["d"] "e" /\
  get_inf_vars ex_net ["d"] None = Ok ["d"; "c"; "a"; "b"] /\
  get_inf_vars ex_net ["d"] (Some ["b"; "d"; "a"]) = Ok ["b"; "d"; "a"; "c"] /\
  get_inf_vars [("a", nM "a" ["b"]); ("b", nM "b" ["a"])] ["a"] None = Ok ["a"; "b"] /\
  get_inf_vars [("a", nM "a" ["b"])] ["a"] None = Err KeyError.
Proof.
  assert (A : forall x, relevant ex_net ["d"] x <-> In x ["d"; "c"; "a"; "b"]).
  { destruct (inf_main ex_net ["d"] None) as [(out & E & H & _)|(E & _)]; [|vm_compute in E; discriminate].
    replace ["d"; "c"; "a"; "b"] with out by (vm_compute in E; congruence). intros x. symmetry. auto. }
  split; [repeat constructor; cbn; tauto|]. split.
  { intros v Hv. apply A in Hv. destruct Hv as [<- |[<- |[<- |[<- |[]]]]]; discriminate. }
  split; [apply A; cbn; tauto|]. split.
  { intros X. apply A in X. cbn in X. intuition discriminate. }
  repeat split; reflexivity.
Qed.

(** * C37 *)

(** every CPM at most once, and after the CPMs that define its parents *)
Theorem C37_topological :
  forall cpms order vars add, get_sample_order cpms = (order, vars, add) -> topological cpms order.
Proof. intros cpms order vars add H. apply sample_order_main in H. tauto. Qed.
Print Assumptions C37_topological.

(** on an acyclic network, with one CPM per variable, all CPMs are listed and
    [sample_vars] lists the children in that order *)
Theorem C37_complete :
  forall cpms order vars add, get_sample_order cpms = (order, vars, add) ->
    one_definition cpms -> acyclic cpms ->
    Permutation order (seq 0 (List.length cpms)) /\
    names vars = List.concat (map (fun j => match nth_error cpms j with Some M => names (children M) | None => [] end) order).
Proof.
  intros cpms order vars add H H1 H2. apply sample_order_main in H as [_ H]. destruct (H H1 H2) as [A B]. split; auto.
  rewrite B. unfold child_names. apply flat_map_concat_map.
Qed.
Print Assumptions C37_complete.

(** [var_add_order] gives for each sampled variable the place of its CPM in the order *)
Theorem C37_numbers :
  forall cpms order vars add, get_sample_order cpms = (order, vars, add) ->
    one_definition cpms -> acyclic cpms ->
    List.length vars = List.length add /\
    combine vars add = List.concat (map (fun kj => map (fun v => (v, fst kj))
      (match nth_error cpms (snd kj) with Some M => children M | None => [] end)) (combine (seq 0 (List.length order)) order)).
Proof.
  intros cpms order vars add H H1 HA. apply sample_order_exact in H as [-> ->]; auto. clear H1 HA. unfold child_vars.
  generalize 0%nat. induction order as [|j l IH]; intros k; cbn [flat_map add_of List.length seq combine map List.concat]; auto.
  destruct (IH (S k)) as [L E]. cbn [fst snd]. set (ch := match nth_error cpms j with Some M => children M | None => [] end).
  split; [rewrite !app_length, map_length, L; auto|]. rewrite <- E. clear.
  induction ch as [|v ch IH]; cbn; auto. f_equal. auto.
Qed.
Print Assumptions C37_numbers.

(** and only on an acyclic network are all CPMs listed *)
Theorem C37_cyclic :
  forall cpms order vars add, get_sample_order cpms = (order, vars, add) ->
    Permutation order (seq 0 (List.length cpms)) -> acyclic cpms.
Proof. intros cpms order vars add H P. apply topological_acyclic with order; auto. eapply C37_topological; eauto. Qed.
Print Assumptions C37_cyclic.

Definition ex_cpms : list cpm := [nM "d" ["c"]; nM "c" ["a"; "b"]; nM "a" []; nM "b" ["a"]].
Example C37_topological_ex :
  one_definition ex_cpms /\ acyclic ex_cpms /\
  (let '(o, vs, ad) := get_sample_order ex_cpms in (o, names vs, ad)) = ([2; 3; 1; 0], ["a"; "b"; "c"; "d"], [0; 1; 2; 3])%nat /\
  (let '(o, vs, ad) := get_sample_order [nM "a" ["b"]; nM "b" ["a"]] in (o, names vs, ad)) = ([], [], []).
Proof.
  split; [|split; [|split]].
  - intros i j n (M & E & Hn) (M' & E' & Hn').
    destruct i as [|[|[|[|i]]]]; cbn in E; try (injection E as <-); try (destruct i; discriminate);
    destruct j as [|[|[|[|j]]]]; cbn in E'; try (injection E' as <-); try (destruct j; discriminate);
    auto; cbn in Hn, Hn'; destruct Hn as [<- |[]]; destruct Hn' as [X|[]]; discriminate.
  - exists (fun j => match j with 2 => 0 | 3 => 1 | 1 => 2 | _ => 3 end)%nat.
    intros j n (M & E & Hn). destruct j as [|[|[|[|j]]]]; cbn in E; try (injection E as <-); try (destruct j; discriminate); cbn in Hn.
    + destruct Hn as [<- |[]]. exists 1%nat. split; [eexists; split; [reflexivity|left; reflexivity]|lia].
    + destruct Hn as [<- |[<- |[]]]; [exists 2%nat|exists 3%nat]; (split; [eexists; split; [reflexivity|left; reflexivity]|lia]).
    + destruct Hn.
    + destruct Hn as [<- |[]]. exists 2%nat. split; [eexists; split; [reflexivity|left; reflexivity]|lia].
  - reflexivity.
  - reflexivity.
Qed.
