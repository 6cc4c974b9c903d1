(** Model of CPMs with samples, /repo/BNS_JT/cpm.py and operation.py.  A hybrid CPM
    is a CPM ([Cpm.v]) with the sampled rows [Cs], their sampling weights [q], target
    weights [ps] and numbers [sample_idx].  [q] and [ps] have one column; several
    columns are only stored for CPMs with several children by
    [mcs_product(is_scalar=False)].  Floats are rationals. *)
From Coq Require Import ZArith List String Bool Arith QArith Qcanon.
From Verif Require Import Py Num Vari Cpm.
Import ListNotations.
Open Scope string_scope.
Open Scope Z_scope.
Open Scope list_scope.

(** cpm.py 36-46 *)
Record hcpm : Type := mkH {
  h_c : cpm;
  h_Cs : list (list Z);
  h_q : list Qc;
  h_ps : list Qc;
  h_idx : list Z
}.

(** cpm.py 117-132, setter of [Cs] for two-dimensional arrays: as many columns as
    variables, no entry above the number of values of its variable *)
Definition check_Cs (vars : list variable) (Cs : list (list Z)) : res unit :=
  match Cs with
  | [] => Ok tt
  | _ =>
      if negb (forallb (fun row => (List.length row =? List.length vars)%nat) Cs) then Err AssertionError
      else if forallb (fun iv => forallb (fun row => at_ row (fst iv) <=? nvals (snd iv)) Cs) (combine (seq 0 (List.length vars)) vars)
      then Ok tt else Err AssertionError
  end.
(** cpm.py 138-151, 157-170, 176-189, setters of [q], [ps] and [sample_idx]: as many
    entries as sampled rows, unless there are none of either *)
Definition check_len {A} (Cs : list (list Z)) (l : list A) : res unit :=
  match l, Cs with
  | [], _ | _, [] => Ok tt
  | _, _ => if (List.length l =? List.length Cs)%nat then Ok tt else Err AssertionError
  end.
Definition mk_h (c : cpm) (Cs : list (list Z)) (q ps : list Qc) (idx : list Z) : res hcpm :=
  _ <- check_Cs (c_vars c) Cs ;;
  _ <- check_len Cs q ;;
  _ <- check_len Cs ps ;;
  _ <- check_len Cs idx ;;
  Ok (mkH c Cs q ps idx).

(** [Cs.size]: no rows or no columns is an empty array *)
Definition no_samples (M : hcpm) : bool :=
  match h_Cs M, c_vars (h_c M) with [], _ | _, [] => true | _, _ => false end.

(** cpm.py 632, 645: the states of a sampled row, those of conditioned variables
    replaced by the evidence; [rs] is [ismember(Mx.variables, cnd_vars)[1]] *)
Definition over_row (sts : list astate) (rs : list (option nat)) (c : list Z) : list astate :=
  map (fun rx => match fst rx with Some j => nth j sts (SI 0) | None => SI (snd rx) end) (combine rs c).

(** cpm.py 560-651 [Cpm.condition].  Lines 627-649: the target weights.  [c'] is the
    conditioned CPM, whose rows give the probability of a sampled row. *)
Definition h_condition (M : hcpm) (cnd_vars : varg) (cnd_states : list astate) : res hcpm :=
  c' <- condition (h_c M) cnd_vars cnd_states ;;
  if no_samples M then Ok (mkH c' (h_Cs M) (h_q M) (h_ps M) (h_idx M)) else
  vs <- resolve (h_c M) cnd_vars ;;
  sts <- cond_states vs cnd_states ;;
  let rs := ismember (c_vars (h_c M)) vs in
  let pr := fun c => get_prob c' (Vars (c_vars c')) (over_row sts rs c) true in
  ps <- (if existsb is_some (firstn (c_nch (h_c M)) rs)
         then mapM (fun cq => p <- pr (fst cq) ;; Ok (p * snd cq)%Qc) (combine (h_Cs M) (h_q M))
         else if forallb (fun r => negb (is_some r)) rs then Ok (h_q M)
         else mapM pr (h_Cs M)) ;;
  mk_h c' (h_Cs M) (h_q M) ps (h_idx M).

(** positions [j] with [idx[j] = k], [np.where(M.sample_idx==k)[0]] *)
Definition places (idx : list Z) (k : Z) : list nat := where_ (map (Z.eqb k) idx).
(** indexing of an array *)
Definition get_at {A} (l : list A) (i : nat) : res A :=
  match nth_error l i with Some x => Ok x | None => Err IndexError end.

(** cpm.py 757-768, the sampled row number [i] of the product: the row of [M] with the
    same number, followed by the variables that [self] has alone.  All rows of [M] of
    that number give weights.  [com] marks the variables of [self] that [M] has. *)
Definition pair_sample (M1 M2 : hcpm) (com : list bool) (ps1 ps2 : list Qc) (i : nat)
  : res (list Z * (list Qc * list Qc)) :=
  c1 <- get_at (h_Cs M1) i ;;
  k <- get_at (h_idx M1) i ;;
  let js := places (h_idx M2) k in
  j0 <- get_at js 0 ;;
  c2 <- get_at (h_Cs M2) j0 ;;
  q1 <- get_at (h_q M1) i ;;
  q2 <- mapM (get_at (h_q M2)) js ;;
  p1 <- get_at ps1 i ;;
  p2 <- mapM (get_at ps2) js ;;
  Ok (c2 ++ select c1 (map negb com), (map (fun x => (x * q1)%Qc) q2, map (fun x => (x * p1)%Qc) p2)).

(** cpm.py 743-754: without target weights the sampling weights are taken.  (The
    operands keep them in Python; they are the same for every later product.) *)
Definition target (M : hcpm) : list Qc := match h_ps M with [] => h_q M | p => p end.

(** cpm.py 660-773 [Cpm.product] once the smaller operand comes first.  Conditioning [M]
    includes its samples (line 717), with an effect only through exceptions.  Without
    rows in [C] but with samples the result has none in [C] (lines 730-732). *)
Definition h_product_ord (M1 M2 : hcpm) : res hcpm :=
  let c1 := h_c M1 in
  let c2 := h_c M2 in
  if common_child c1 c2 then Err AssertionError else
  let com := map is_some (ismember (c_vars c1) (c_vars c2)) in
  let prod_vars := c_vars c2 ++ select (c_vars c1) (map negb com) in
  let new_child := sort_vars (children c1 ++ children c2) in
  let new_vars := new_child ++ fst (setdiff (parents c1 ++ parents c2) new_child) in
  let idx2 := somes (ismember new_vars prod_vars) in
  c <- (match c_C c1, c_vars c1 with
        | [], _ | _, [] => if no_samples M1 then Err UnboundLocalError else mk_cpm new_vars (List.length new_child) [] []
        | _, _ =>
            let p2 := match c_p c1, c_p c2 with _ :: _, [] => map (fun _ => 1%Qc) (c_C c2) | _, p => p end in
            let M2' := mkH (mkCpm (c_vars c2) (c_nch c2) (c_C c2) p2) (h_Cs M2) (h_q M2) (h_ps M2) (h_idx M2) in
            _ <- mapM (fun r1 => h_condition M2' (Vars (select (c_vars c1) com)) (map SI (select r1 com))) (c_C c1) ;;
            product_ord c1 c2
        end) ;;
  if no_samples M1 || no_samples M2 then Ok (mkH c [] [] [] []) else
  rows <- mapM (pair_sample M1 M2 com (target M1) (target M2)) (seq 0 (List.length (h_Cs M1))) ;;
  mk_h c (map (fun r => cols (fst r) idx2) rows) (flat_map (fun r => fst (snd r)) rows) (flat_map (fun r => snd (snd r)) rows) (h_idx M1).

(** cpm.py 661-662; [C.shape[1]] is the number of variables.  Arrays without rows are taken
    as two-dimensional ([C=[]] at creation gives a one-dimensional array, an IndexError here) *)
Definition h_product (M1 M2 : hcpm) : res hcpm :=
  if (ncols (h_c M2) <? ncols (h_c M1))%nat then h_product_ord M2 M1 else h_product_ord M1 M2.
(** cpm.py 1085-1102 *)
Definition h_product_list (l : list hcpm) : res hcpm :=
  match l with [] => Err AssertionError | M :: l' => foldM h_product l' M end.

(** cpm.py 439-519 [Cpm.sum]; lines 507-517: columns of the kept variables, the rest as before *)
Definition h_sum (M : hcpm) (variables : varg) (flag : bool) : res hcpm :=
  c <- sum (h_c M) variables flag ;;
  if no_samples M then Ok (mkH c [] [] [] []) else
  let idx := somes (ismember (c_vars c) (c_vars (h_c M))) in
  mk_h c (map (fun row => cols row idx) (h_Cs M)) (h_q M) (h_ps M) (h_idx M).

(** cpm.py 415-436 [Cpm.merge]; [np.vstack] of an array with samples and one without
    (one-dimensional, as created by [Cs=[]]) is a ValueError *)
Definition h_merge (M1 M2 : hcpm) : res hcpm :=
  c <- merge (h_c M1) (h_c M2) ;;
  if negb (Bool.eqb (no_samples M1) (no_samples M2)) then Err ValueError else
  mk_h c (h_Cs M1 ++ h_Cs M2) (h_q M1 ++ h_q M2) (h_ps M1 ++ h_ps M2) (h_idx M1 ++ h_idx M2).

(** operation.py 426-453 [variable_elim] *)
Definition h_elim_step (l : list hcpm) (v : variable) : res (list hcpm) :=
  mult <- h_product_list (filter (fun M => in_scope v (h_c M)) l) ;;
  mult' <- h_sum mult (Vars [v]) true ;;
  Ok (mult' :: filter (fun M => negb (in_scope v (h_c M))) l).
Definition h_variable_elim (l : list hcpm) (vars : list variable) : res hcpm :=
  l' <- foldM h_elim_step vars l ;; h_product_list l'.

(** operation.py 17-58 [condition] on a list of CPMs and a list of Variables *)
Definition h_op_condition (l : list hcpm) (vs : list variable) (sts : list astate) : res (list hcpm) :=
  mapM (fun M => h_condition M (Vars vs) sts) l.

(** cpm.py 822-828, 903-909: number of rounds and samples per round *)
Definition rounds (n repeat : nat) : res (nat * nat) :=
  match repeat with
  | O => Ok (1%nat, n)
  | _ => if (n mod repeat =? 0)%nat then Ok ((n / repeat)%nat, repeat) else Err AssertionError
  end.
(** [l[row_range]] for [row_range = range(i*nsamp, (i+1)*nsamp)] within the array *)
Definition block {A} (l : list A) (nsamp i : nat) : list A := firstn nsamp (skipn (i * nsamp) l).

(** cpm.py 835-848: compatibility and weights of one round, before and after the test.
    Without [ps] the weights are ones for all samples (line 841), and a mask for part of
    them is an IndexError.  No [q] is zero here (in Python the weight would be inf or nan). *)
Definition round_weights (M : hcpm) (vs : list variable) (sts : list astate) (flag : bool) (nsamp i : nat)
  : res (list Qc * list Qc) :=
  is <- fn_iscompatible (block (h_Cs M) nsamp i) (c_vars (h_c M)) vs sts ;;
  let w := match h_ps M with
           | [] => map (fun _ => 1%Qc) (h_q M)
           | ps => map (fun pq => (fst pq / snd pq)%Qc) (combine (block ps nsamp i) (block (h_q M) nsamp i))
           end in
  if (List.length w =? List.length is)%nat
  then Ok (w, map (fun wb => if Bool.eqb flag (snd wb) then fst wb else 0%Qc) (combine w is))
  else Err IndexError.

(** [np.allclose(w_ori, w_ori[0], atol=1e-4)], with the default rtol of 1e-5 *)
Definition qabs (x : Qc) : Qc := if qc_ltb x 0%Qc then (- x)%Qc else x.
Definition close_to (w0 x : Qc) : bool := qc_leb (qabs (x - w0)%Qc) (Q2Qc (1 # 10000) + Q2Qc (1 # 100000) * qabs w0)%Qc.

(** cpm.py 850-859, method 'MLE': mean and variance of one round *)
Definition mle_round (nsamp : nat) (ws : list Qc * list Qc) : Qc * Qc :=
  let n := qz (Z.of_nat nsamp) in
  let mean := (qsum (snd ws) / n)%Qc in
  let w0 := hd 0%Qc (fst ws) in
  (mean, if forallb (close_to w0) (fst ws)
         then (w0 * w0 * (1 - mean) * mean / n)%Qc
         else qsum (map (fun x => ((x - mean) / n * ((x - mean) / n))%Qc) (snd ws))).

(** cpm.py 862-878, method 'Bayesian': true cases and effective sample size of one round.
    0/0 for weights that are all 0 is nan, replaced by 0. *)
Definition bayes_round (ws : list Qc * list Qc) : Qc * Qc :=
  let n := qz (Z.of_nat (List.length (fst ws))) in
  let tot := qsum (fst ws) in
  let m := (tot / n)%Qc in
  let neff := (n * (m * m) / (qsum (map (fun x => (x * x)%Qc) (fst ws)) / n))%Qc in
  (qsum (map (fun x => (x / tot * neff)%Qc) (snd ws)), neff).
Definition bayes_prior : Qc := Q2Qc (1 # 100).

(** cpm.py 814-896 [Cpm.get_prob_and_cov]: the probability and the square of the
    coefficient of variation (without the bounds of the confidence interval, [norm.pdf] and
    [beta.ppf]).  Without samples it is nan or an IndexError; IndexError here. *)
Inductive est_method : Type := MLE | Bayesian.
Definition get_prob_and_cov (M : hcpm) (vs : list variable) (sts : list astate) (m : est_method) (flag : bool) (repeat : nat)
  : res (Qc * Qc) :=
  prob_C <- get_prob (h_c M) (Vars vs) sts flag ;;
  '(n_round, nsamp) <- rounds (List.length (h_Cs M)) repeat ;;
  match h_Cs M with
  | [] => Err IndexError
  | _ =>
      ws <- mapM (round_weights M vs sts flag nsamp) (seq 0 n_round) ;;
      let u := (1 - qsum (c_p (h_c M)))%Qc in
      let '(est, var) :=
        match m with
        | MLE => let l := map (mle_round nsamp) ws in (qsum (map fst l), qsum (map snd l))
        | Bayesian =>
            let l := map bayes_round ws in
            let a := (bayes_prior + qsum (map fst l))%Qc in
            let b := (bayes_prior + qsum (map (fun x => (snd x - fst x)%Qc) l))%Qc in
            ((a / (a + b))%Qc, (a * b / ((a + b) * (a + b)) / (a + b + 1))%Qc)
        end in
      let prob := (prob_C + u * est)%Qc in
      Ok (prob, (u * u * var / (prob * prob))%Qc)
  end.
