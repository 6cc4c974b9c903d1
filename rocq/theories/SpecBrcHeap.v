(** Vocabulary for C104: what a search may do to objects of its caller. *)
From Coq Require Import ZArith List String Bool Arith QArith Qcanon.
From Verif Require Import Py Num Vari Brc BrcHeap.
Import ListNotations.
Open Scope Z_scope.
Open Scope list_scope.

(** a branch after it was looked at with the given rules: an unknown end may have
    got the label of a rule that decides it; nothing else changes *)
Definition at_least (d rule : dict Z) : Prop := forall k v, In (k, v) rule -> exists x, dfind d k = Some x /\ v <= x.
Definition at_most (d rule : dict Z) : Prop := forall k v, In (k, v) rule -> exists x, dfind d k = Some x /\ x <= v.
Definition label_after (rules : ruleset) (d : dict Z) (s s' : st) : Prop :=
  s' = s \/
  (s = U_ /\ s' = S_ /\ exists r, In r (r_s rules) /\ at_least d r) \/
  (s = U_ /\ s' = F_ /\ exists r, In r (r_f rules) /\ at_most d r).
Definition relabelled (rules : ruleset) (b b' : branch) : Prop :=
  b_down b' = b_down b /\ b_up b' = b_up b /\ b_p b' = b_p b /\
  label_after rules (b_down b) (b_down_state b) (b_down_state b') /\
  label_after rules (b_up b) (b_up_state b) (b_up_state b').

(** no reference dangles *)
Definition sane (h : heap) : Prop := forall o, In o (h_bs h) -> (o_down o < List.length (h_ds h))%nat /\ (o_up o < List.length (h_ds h))%nat.
Definition live (h : heap) (r : nat) : Prop := (r < List.length (h_bs h))%nat.

(** a function that does not touch its argument *)
Definition leaves_alone (F : sysfun_h) : Prop := forall x, snd (F x) = x.
Definition values_of (F : sysfun_h) : sysfun := fun x => fst (F x).
(** a function that touches its argument only if it also gives minimum states *)
Definition safe_values (F : sysfun_h) : Prop := forall x, snd (F x) = x \/ exists kv m, snd (fst (F x)) = Some (kv :: m).

(** what the loop reads of a branch when it is not split: its labels and probability *)
Definition tag (b : branch) : st * st * Qc := (b_down_state b, b_up_state b, b_p b).

(** what is passed to a search exists; no branch is passed twice *)
Definition wf_call (h : heap) (rules : option nat) (brs : option (list nat)) : Prop :=
  sane h /\ (forall r, rules = Some r -> (r < List.length (h_rs h))%nat) /\
  (forall b, brs = Some b -> NoDup b /\ forall r, In r b -> live h r).

(** a state of the search as it looks now *)
Definition seen_sys (h : heap) (e : sysres_h) : sysres := (fst (fst e), hdict h (snd (fst e)), snd e).
Definition as_seen (h : heap) (s : hstate) : rstate :=
  mkSt (option_map (map (view h)) (hs_brs s)) (hrules h (hs_rules s)) (map (seen_sys h) (hs_sys s)) (hs_mon s) (hs_ctrl s).
