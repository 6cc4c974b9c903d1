(** C22: which vector is evaluated next, for every list of branches. *)
From Coq Require Import ZArith List String Bool QArith Qcanon Lia.
From Verif Require Import Py PyFacts Num Vari VariFacts Brc SpecBrc BrcFacts BrcMain SpecNext BrcNext PropBrc.
Import ListNotations.
Open Scope string_scope.
Open Scope Z_scope.
Open Scope list_scope.

(** surv_first=True: the upper end of the first most probable branch with unknown upper end; without such branches the same with lower ends *)
Theorem C22_most_probable : forall brs varis probs,
  (exists b, first_max b_p unknown_up brs b /\ get_comp_st brs true varis probs = Ok (Some (b_up b))) \/
  (forall b, In b brs -> unknown_up b = false) /\
    ((exists b, first_max b_p unknown_down brs b /\ get_comp_st brs true varis probs = Ok (Some (b_down b))) \/
     (forall b, In b brs -> unknown_down b = false) /\ get_comp_st brs true varis probs = Ok None).
Proof. exact next_surv. Qed.
Print Assumptions C22_most_probable.

(** surv_first=False, for all branches: it raises exactly when the first branch that is not fully known has a known upper end; otherwise it
    returns the upper end for which the better vectors are most probable.  A lower end is never returned. *)
Theorem C22_fail_first : forall varis probs brs, wf_varis varis -> wf_probs varis probs -> boxes varis brs ->
  (get_comp_st brs false varis probs = Err UnboundLocalError <-> stuck brs) /\
  (get_comp_st brs false varis probs = Ok None <-> forall b, In b brs -> unknown_up b = false /\ unknown_down b = false) /\
  (forall x, get_comp_st brs false varis probs = Ok (Some x) -> exists b, x = b_up b /\ first_max (fun b => above varis probs (b_up b)) unknown_up brs b) /\
  (forall e, get_comp_st brs false varis probs = Err e -> e = UnboundLocalError).
Proof.
  intros varis probs brs Hw Hp Hb. assert (W : Forall (fun b => wf_br varis b) brs) by (apply Forall_forall; exact Hb).
  assert (N : stuck brs -> ~ (forall b, In b brs -> unknown_up b = false /\ unknown_down b = false)).
  { intros (l1 & b & l2 & E & _ & _ & H) K. assert (Hin : In b brs) by (rewrite E; apply in_or_app; right; left; auto). destruct (K b Hin). congruence. }
  destruct (next_fail varis probs Hw Hp brs W) as [[S ->]|[(S & b & M & ->)|[K ->]]].
  - split; [tauto|]. split; [split; [discriminate|intros K; exfalso; apply N; auto]|]. split; [discriminate|congruence].
  - split; [split; [discriminate|tauto]|]. split; [|split; [|discriminate]].
    + split; [discriminate|]. intros K. exfalso. destruct M as (l1 & l2 & E & F & _). assert (Hin : In b brs) by (rewrite E; apply in_or_app; right; left; auto). destruct (K b Hin). congruence.
    + intros x E. injection E as <-. eauto.
  - split; [split; [discriminate|intros S; exfalso; apply N; auto]|]. split; [tauto|]. split; discriminate.
Qed.
Print Assumptions C22_fail_first.

(** two unknown branches: the larger one is chosen first with surv_first=True, the one with more probable better vectors with surv_first=False;
    the order of the branches decides whether surv_first=False raises *)
Definition nx_br (d u : list Z) (ds us : st) (p : Q) : branch := mkBr (combine ["x1"; "x2"; "x3"] d) (combine ["x1"; "x2"; "x3"] u) ds us (Q2Qc p).
Definition nx1 := nx_br [0; 1; 0] [1; 1; 0] U_ U_ (2 # 25).
Definition nx2 := nx_br [0; 0; 0] [1; 0; 0] U_ U_ (1 # 50).
Definition nx3 := nx_br [2; 0; 0] [2; 1; 1] U_ S_ (3 # 5).
Example C22_next_ex :
  wf_varis ex_varis /\ wf_probs ex_varis ex_probs /\ boxes ex_varis [nx1; nx2; nx3] /\
  get_comp_st [nx2; nx3; nx1] true ex_varis ex_probs = Ok (Some (b_up nx1)) /\
  get_comp_st [nx1; nx3; nx2] false ex_varis ex_probs = Ok (Some (b_up nx2)) /\
  map this (map (above ex_varis ex_probs) [b_up nx1; b_up nx2]) = [18 # 25; 9 # 10]%Q /\
  stuck [nx3; nx1; nx2] /\ get_comp_st [nx3; nx1; nx2] false ex_varis ex_probs = Err UnboundLocalError /\
  get_comp_st [nx3] true ex_varis ex_probs = Ok (Some (b_down nx3)).
Proof.
  split; [apply ex_wf_varis|]. split; [apply ex_wf_probs|]. split.
  { intros b Hb. assert (D : In (b_down b) (space (comps_of ex_varis)) /\ In (b_up b) (space (comps_of ex_varis))).
    { destruct Hb as [<-|[<-|[<-|[]]]]; vm_compute; intuition. }
    destruct D. split; auto. split; auto. intros k Hk. cbn in Hk. destruct Hb as [<-|[<-|[<-|[]]]]; intuition subst; cbn; lia. }
  split; [vm_compute; reflexivity|]. split; [vm_compute; reflexivity|]. split; [vm_compute; reflexivity|]. split; [|split; vm_compute; reflexivity].
  exists [], nx3, [nx1; nx2]. split; auto. split; [intros a []|]. auto.
Qed.
