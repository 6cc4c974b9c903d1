(** Model of the estimates of conditional probabilities, /repo/BNS_JT/cpm.py 898-950 and
    /repo/BNS_JT/utils.py 24-57.  Floats are rationals; the draws of [np.random.beta] are parameters. *)
From Coq Require Import ZArith List String Bool Arith QArith Qcanon Qround.
From Verif Require Import Py Num Vari Cpm Hybrid.
Import ListNotations.
Open Scope string_scope.
Open Scope Z_scope.
Open Scope list_scope.

(** utils.py 54-55, [np.percentile(l, 100*t)] with the default method 'linear' *)
Definition percentile (l : list Qc) (t : Qc) : Qc :=
  let s := sort_desc qc_ltb l in
  let h := ((qz (Z.of_nat (List.length l)) - 1) * t)%Qc in
  let z := Qfloor (this h) in
  let x := nth (Z.to_nat z) s 0%Qc in
  (x + (nth (S (Z.to_nat z)) s x - x) * (h - qz z))%Qc.

(** utils.py 24-57 [get_rat_dist]: mean, square of the standard deviation, and interval.  [draw1 a b] and
    [draw2 a b] are the draws of lines 45 and 46 ([n_samp] is their number); [np.random.beta] itself wants
    positive parameters.  0/0 is nan in Python, an error here. *)
Definition get_rat_dist (draw1 draw2 : Qc -> Qc -> list Qc) (k1 k2 q a1 a2 b1 b2 p : Qc) : res (Qc * Qc * (Qc * Qc)) :=
  if negb (forallb (qc_leb 0%Qc) [k1; k2; a1; a2; b1; b2]) then Err ValueError
  else if negb (qc_ltb 0%Qc p && qc_ltb p 1%Qc) then Err ValueError
  else if negb (forallb (qc_ltb 0%Qc) [a1; b1; a2; b2]) then Err ValueError
  else
    ratio <- mapM (fun x => let d := (q * (fst x + snd x) + k1 + k2)%Qc in
                            if qc_eqb d 0%Qc then Err ZeroDivisionError else Ok ((q * fst x + k1) / d)%Qc)
                  (combine (draw1 a1 b1) (draw2 a2 b2)) ;;
    let n := qz (Z.of_nat (List.length ratio)) in
    let mean := (qsum ratio / n)%Qc in
    let var := (qsum (map (fun x => ((x - mean) * (x - mean))%Qc) ratio) / (n - 1))%Qc in
    let half := ((1 - p) / (1 + 1))%Qc in
    Ok (mean, var, (percentile ratio half, percentile ratio (1 - half)%Qc)).

(** cpm.py 898-950 [Cpm.get_prob_and_cov_cond]: the probability, the square of the coefficient of variation,
    and the interval.  The two masks of a round (919-925) and the effective sizes (927-933) are those of
    [get_prob_and_cov]; here, weights that are all 0 stay nan, which line 37 of utils.py rejects.  Line 948:
    division by a mean of 0 is 0 here, nan in Python.  Without samples: IndexError (line 919). *)
Definition get_prob_and_cov_cond (draw1 draw2 : Qc -> Qc -> list Qc) (M : hcpm) (vs : list variable) (sts : list astate)
  (cvs : list variable) (csts : list astate) (repeat : nat) (conf_p : Qc) : res (Qc * Qc * (Qc * Qc)) :=
  '(n_round, nsamp) <- rounds (List.length (h_Cs M)) repeat ;;
  match h_Cs M with
  | [] => Err IndexError
  | _ =>
      ws <- mapM (fun i => w1 <- round_weights M vs sts true nsamp i ;;
                           w2 <- round_weights M cvs csts true nsamp i ;;
                           Ok (w1, w2)) (seq 0 n_round) ;;
      prob_C <- get_prob (h_c M) (Vars vs) sts true ;;
      prob_C_c <- get_prob (h_c M) (Vars cvs) csts true ;;
      if existsb (fun w => forallb (qc_eqb 0%Qc) (fst (fst w))) ws then Err ValueError else
      let nTrue1 w := fst (bayes_round (fst w)) in
      let nTrue2 w := fst (bayes_round (snd w)) in
      let neff w := snd (bayes_round (fst w)) in
      let a1 := (bayes_prior + qsum (map nTrue1 ws))%Qc in
      let b1 := (bayes_prior + qsum (map (fun w => (neff w - nTrue1 w)%Qc) ws))%Qc in
      let a2 := (bayes_prior + qsum (map (fun w => (nTrue2 w - nTrue1 w)%Qc) ws))%Qc in
      let b2 := (bayes_prior + qsum (map (fun w => (neff w - (nTrue2 w - nTrue1 w))%Qc) ws))%Qc in
      '(prob, var, cint) <- get_rat_dist draw1 draw2 prob_C (prob_C_c - prob_C)%Qc (1 - qsum (c_p (h_c M)))%Qc a1 a2 b1 b2 conf_p ;;
      Ok (prob, (var / (prob * prob))%Qc, cint)
  end.
