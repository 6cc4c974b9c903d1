(** Final theorems about further methods of [Cpm]. *)
From Coq Require Import ZArith List String Bool QArith Qcanon Lia Permutation.
From Verif Require Import Py Num Vari VariFacts Cpm SpecCpm CpmProb CpmMean PropCpm.
Import ListNotations.
Open Scope string_scope.
Open Scope Z_scope.
Open Scope list_scope.

(** * C54 *)

(** [get_means] gives, in the order of the names, the sum over all joint states
    of state number times probability (the expectation, when the probabilities
    add up to one), for a CPM that lists basic states. *)
Theorem C54_means :
  forall M vs, wf_cpm M -> has_p M -> lists_states M -> NoDup (names vs) -> incl vs (c_vars M) ->
    forall a, get_means M (names vs) =
      Ok (map (fun v => marg (c_vars M) (fun b => (qz (b (v_name v)) * mass M b)%Qc) a) vs).
Proof. exact means_main. Qed.
Print Assumptions C54_means.

Theorem C54_total :
  forall M, wf_cpm M -> has_p M -> lists_states M -> forall a, marg (c_vars M) (mass M) a = qsum (c_p M).
Proof. exact rows_total. Qed.
Print Assumptions C54_total.

(** Repeated names and names of variables that are not there raise. *)
Theorem C54_names :
  forall M l,
    (~ NoDup l -> get_means M l = Err AssertionError) /\
    (NoDup l -> (exists n, In n l /\ ~ In n (names (c_vars M))) -> get_means M l = Err ValueError).
Proof. intros M l. split; [apply means_dup|apply means_unknown]. Qed.
Print Assumptions C54_names.

Definition Pxy : cpm := mkCpm [vy; vx] 2 [[0; 0]; [2; 1]; [1; 1]] [Q2Qc (1 # 2); Q2Qc (1 # 4); Q2Qc (1 # 4)].
Lemma lists_states_b M :
  forallb (fun row => forallb (fun vc => (0 <=? snd vc) && (snd vc <? nvals (fst vc)) &&
     match states_of (fst vc) (snd vc) with [s] => s =? snd vc | _ => false end) (combine (c_vars M) row)) (c_C M) = true -> lists_states M.
Proof.
  rewrite forallb_forall. intros H row v c Hr Hin. specialize (H row Hr). rewrite forallb_forall in H. specialize (H (v, c) Hin).
  cbn [fst snd] in H. destruct (states_of v c) as [|s [|]]; try (rewrite andb_false_r in H; discriminate).
  apply andb_true_iff in H as [H1 H2]. split; [lia|]. intros x. apply Z.eqb_eq in H2. subst. cbn. intuition.
Qed.
Example C54_means_ex :
  wf_cpm Pxy /\ has_p Pxy /\ lists_states Pxy /\ qsum (c_p Pxy) = 1%Qc /\
  match get_means Pxy ["x"; "y"] with Ok l => map this l | Err _ => [] end = [1 # 2; 3 # 4]%Q /\
  get_means Pxy ["x"; "x"] = Err AssertionError /\ get_means Pxy ["z"] = Err ValueError.
Proof.
  split; [|split; [|split; [|split; [|split; [|split]]]]].
  - apply wf_b_ok; [|reflexivity]. repeat (constructor; [apply ex_g_ok || exact (ex_g_ok "x") || exact (ex_g_ok "y")|]). constructor.
  - reflexivity.
  - apply lists_states_b. reflexivity.
  - apply Qc_is_canon. reflexivity.
  - vm_compute. reflexivity.
  - reflexivity.
  - reflexivity.
Qed.
