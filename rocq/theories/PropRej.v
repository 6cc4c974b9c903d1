(** Final theorems about rejection sampling (C71). *)
From Coq Require Import ZArith List String Bool Arith Lia QArith Qcanon.
From Verif Require Import Py PyFacts Num Vari VariFacts Cpm CpmFacts SpecCpm Net SpecNet NetFacts Sample Reject PropCpm PropProd PropVe.
Import ListNotations.
Open Scope string_scope.
Open Scope Z_scope.
Open Scope list_scope.

Lemma by_names_nonempty vars ns v : In v vars -> In (v_name v) ns -> by_names vars ns <> [].
Proof.
  intros H1 H2 E. assert (X : In v (by_names vars ns)); [|rewrite E in X; destruct X].
  unfold by_names. apply in_flat_map. exists (v_name v). split; auto. apply filter_In. split; auto. apply String.eqb_refl.
Qed.
Lemma no_states_fails C vars vs : vs <> [] -> fn_iscompatible C vars vs [] = Err AssertionError.
Proof. intros H. unfold fn_iscompatible, get_value, ismember. rewrite !map_length. destruct vs; [congruence|reflexivity]. Qed.

(** Whatever the network, the system's rows, the samples drawn and the request: once the system has a
    component and a sample is wanted, every run ends in an exception. *)
Theorem C71_never :
  forall R (rest : list Z -> list bool -> list (Qc * res R)) done cpms sys req,
    (forall Y, dfind cpms sys = Some Y -> parents Y <> []) -> wanted req = true ->
    forall w o, In (w, o) (rejection_sampling_sys rest done cpms sys req) -> exists e, o = Err e.
Proof.
  intros R rest done cpms sys req HP HW w o. unfold rejection_sampling_sys. destruct (dfind cpms sys) as [Y|]; [|intros [E|[]]; injection E as <- <-; eauto].
  specialize (HP Y eq_refl). destruct (get_sample_order _) as [[order vars] add] eqn:EO. destruct (places_of vars (parents Y)) as [locs|] eqn:EP.
  - destruct (cpms_no_sys cpms sys Y) as [|kM sub]; [|intros [E|[]]; injection E as <- <-; eauto].
    exfalso. cbn in EO. injection EO as <- <- <-. destruct (parents Y); [congruence|]. discriminate EP.
  - rewrite HW. intros H. apply in_flat_map in H as ([w' o'] & _ & H). cbn [fst snd map] in H. destruct o' as [[sample q]|e]; [|destruct H as [E|[]]; injection E as <- <-; eauto].
    rewrite no_states_fails in H; [destruct H as [E|[]]; injection E as <- <-; eauto|].
    destruct (parents Y) as [|v l] eqn:EL; [congruence|]. apply (by_names_nonempty _ _ v); left; auto.
Qed.
Print Assumptions C71_never.

(** If the components are sampled together with all their ancestors, no sample is even drawn. *)
Theorem C71_name_error :
  forall R (rest : list Z -> list bool -> list (Qc * res R)) done cpms sys req Y order vars add,
    dfind cpms sys = Some Y -> parents Y <> [] -> get_sample_order (map snd (cpms_no_sys cpms sys Y)) = (order, vars, add) ->
    (forall v, In v (parents Y) -> In (v_name v) (names vars)) ->
    rejection_sampling_sys rest done cpms sys req = [(1%Qc, Err NameError)].
Proof.
  intros R rest done cpms sys req Y order vars add HS HP EO HV. unfold rejection_sampling_sys. rewrite HS, EO.
  assert (K : exists l, places_of vars (parents Y) = Some l).
  { revert HV. generalize (parents Y). induction l as [|v l IH]; intros HV; [exists []; auto|]. cbn [places_of].
    destruct (find_idx (fun w => String.eqb (v_name w) (v_name v)) vars) as [i|] eqn:E.
    - destruct (IH (fun x Hx => HV x (or_intror Hx))) as (l' & ->). eauto.
    - exfalso. specialize (HV v (or_introl eq_refl)). apply in_map_iff in HV as (w & EW & HW). clear -E EW HW.
      induction vars as [|x vars IH]; [destruct HW|]. cbn [find_idx] in E. destruct HW as [->|HW].
      + rewrite EW, String.eqb_refl in E. discriminate E.
      + destruct (String.eqb (v_name x) (v_name v)); [discriminate E|]. destruct (find_idx _ vars); [discriminate E|]. auto. }
  destruct K as (l & EK). rewrite EK. destruct (cpms_no_sys cpms sys Y); [|reflexivity].
  exfalso. cbn in EO. injection EO as <- <- <-. destruct (parents Y) as [|v p]; [congruence|]. destruct (HV v (or_introl eq_refl)).
Qed.
Print Assumptions C71_name_error.

(** independent components x and y: NameError; with a hazard outside the scope of the system: AssertionError *)
Definition rej (cpms : dict cpm) (req : request) : list (Q * res unit) :=
  map (fun o => (this (fst o), snd o)) (rejection_sampling_sys (fun _ _ => [(1%Qc, Ok tt)]) [(1%Qc, Ok tt)] cpms "s" req).
Example C71_ex :
  parents Ms <> [] /\ wanted (Target (q 1 20)) = true /\
  rej [("x", Px); ("y", Py); ("s", Ms)] (Target (q 1 20)) = [(1%Q, Err NameError)] /\
  rej [("h", Ph); ("x", Fx); ("y", Fy); ("s", Ms)] (Number 10) = [(1%Q, Err AssertionError)] /\
  rej [("h", Ph); ("x", Fx); ("y", Fy); ("s", Ms)] (Number 0) = [(1%Q, Err UnboundLocalError)].
Proof. split; [discriminate|]. split; [reflexivity|]. split; [|split]; vm_compute; reflexivity. Qed.

(** A request for no sample returns, if no CPM but that of the system is involved. *)
Theorem C71_nothing_wanted :
  forall R (rest : list Z -> list bool -> list (Qc * res R)) done cpms sys n Y, n <= 0 -> dfind cpms sys = Some Y -> parents Y <> [] ->
    (forall k M v w, In (k, M) cpms -> k <> sys -> In v (children M) -> In w (c_vars Y) -> v_name v <> v_name w) ->
    rejection_sampling_sys rest done cpms sys (Number n) = done.
Proof.
  intros R rest done cpms sys n Y Hn HS HP HC. unfold rejection_sampling_sys. rewrite HS.
  assert (E : cpms_no_sys cpms sys Y = []).
  { unfold cpms_no_sys. destruct (filter _ cpms) as [|[k M] l] eqn:E; auto. exfalso.
    assert (I : In (k, M) (filter (fun kM => negb (String.eqb (fst kM) sys) &&
      existsb (fun v => existsb (fun w => String.eqb (v_name v) (v_name w)) (c_vars Y)) (children (snd kM))) cpms)) by (rewrite E; left; auto).
    apply filter_In in I as [I1 I2]. apply andb_true_iff in I2 as [I2 I3]. cbn [fst snd] in *. apply existsb_exists in I3 as (v & V1 & V2).
    apply existsb_exists in V2 as (w & W1 & W2). apply String.eqb_eq in W2. apply (HC k M v w); auto. intros ->. rewrite String.eqb_refl in I2. discriminate I2. }
  rewrite E. cbn [map]. destruct (get_sample_order []) as [[order vars] add]. cbn [wanted]. rewrite (proj2 (Z.ltb_ge 0 n)) by lia.
  destruct (places_of vars (parents Y)); auto.
Qed.
Print Assumptions C71_nothing_wanted.
Example C71_nothing_wanted_ex : parents Ms <> [] /\ rej [("s", Ms)] (Number 0) = [(1%Q, Ok tt)].
Proof. split; [discriminate|]. vm_compute. reflexivity. Qed.
