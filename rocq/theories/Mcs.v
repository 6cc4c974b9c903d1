(** Model of the Monte Carlo estimators that finish an incomplete decomposition
    (/repo/BNS_JT/branch.py 751-928) and of crude Monte Carlo (/repo/BNS_JT/brc.py
    497-522).  A random draw is the exact distribution of its outcomes: a list of
    (probability, outcome).  A run of an estimator is a function of the list of the
    outcomes it draws.  The seed, the printed lines, the bounds of the confidence
    interval ([beta.ppf]) and run time are not modelled; floats are rationals, and a
    coefficient of variation is represented by its square. *)
From Coq Require Import ZArith List String Bool Arith QArith Qcanon.
From Verif Require Import Py Num Vari Cpm Brc.
Import ListNotations.
Open Scope string_scope.
Open Scope Z_scope.
Open Scope list_scope.

(** [np.random.choice(xs, p=ps)] as used in branch.py 799, 807 and brc.py 507: ValueError
    for no outcome, for weights of another number, for a negative weight and for
    weights that do not sum to 1 (numpy accepts a rounding error of 1.5e-8, the model
    none).  Outcomes of weight 0 never occur. *)
Definition np_choice {A} (xs : list A) (ps : list Qc) : res (list (Qc * A)) :=
  if (List.length xs =? 0)%nat then Err ValueError
  else if negb (List.length ps =? List.length xs)%nat then Err ValueError
  else if forallb (qc_leb 0%Qc) ps && qc_eqb (qsum ps) 1%Qc
  then Ok (filter (fun o => negb (qc_eqb (fst o) 0%Qc)) (combine ps xs))
  else Err ValueError.

(** [probs[e][st]], branch.py 807 and 812 *)
Definition p_state (probs : prob_dict) (e : string) (st : Z) : res Qc :=
  d <- dget probs e ;; pget d st.

(** branch.py 773, 884: branches with an unknown end *)
Definition has_unknown (b : branch) : bool := st_eqb (b_down_state b) U_ || st_eqb (b_up_state b) U_.
Definition mcs_brs_u (brs : list branch) : list branch := filter has_unknown brs.
(** branch.py 774, 885 *)
Definition mcs_pf_low (brs : list branch) : Qc :=
  qsum (map b_p (filter (fun b => st_eqb (b_up_state b) F_) brs)).
(** branch.py 780-781, 891-892 *)
Definition mcs_u_prob (brs : list branch) : Qc := qsum (map b_p (mcs_brs_u brs)).

(** branch.py 806-809, 910-913: state of component [e] between [d] and [u] *)
Definition draw_state (probs : prob_dict) (e : string) (d u : Z) : res (list (Qc * Z)) :=
  if d <? u then
    pd <- p_state probs e d ;; pu <- p_state probs e u ;;
    np_choice (zrange d (u + 1)) [pd; pu]
  else Ok [(1%Qc, d)].

(** branch.py 802-811, 906-915: the components of a branch one after the other; [down]
    is what is left of [br.down], whose keys are distinct *)
Fixpoint draw_box (probs : prob_dict) (up down : dict Z) : list (Qc * res (dict Z)) :=
  match down with
  | [] => [(1%Qc, Ok [])]
  | (e, d) :: down' =>
      match (u <- dget up e ;; draw_state probs e d u) with
      | Err x => [(1%Qc, Err x)]
      | Ok os => flat_map (fun o => map (fun r => ((fst o * fst r)%Qc, (x <- snd r ;; Ok ((e, snd o) :: x))))
                                        (draw_box probs up down')) os
      end
  end.

(** branch.py 798-811, 903-915: one sample.  When all weights are 0, Python raises
    ZeroDivisionError or (numpy floats) ValueError; the model raises ValueError. *)
Definition draw_sample (brs : list branch) (probs : prob_dict) : list (Qc * res (dict Z)) :=
  let us := mcs_brs_u brs in
  match np_choice us (map (fun b => (b_p b / mcs_u_prob brs)%Qc) us) with
  | Err e => [(1%Qc, Err e)]
  | Ok os => flat_map (fun o => map (fun r => ((fst o * fst r)%Qc, snd r)) (draw_box probs (b_up (snd o)) (b_down (snd o)))) os
  end.

(** branch.py 829-840, 923-934: posterior of a beta-binomial model *)
Record estimate : Type := mkEst { e_pf : Qc; e_cov2 : Qc; e_nsamp : Z }.
Definition prior : Qc := Q2Qc (1 # 100).
Definition posterior (pf_low u_prob : Qc) (nsamp nfail : Z) : Qc * Qc :=
  let a := (prior + qz nfail)%Qc in
  let b := (prior + qz (nsamp - nfail))%Qc in
  let pf_s := (a / (a + b))%Qc in
  let var_s := (a * b / ((a + b) * (a + b)) / (a + b + 1))%Qc in
  let pf := (pf_low + u_prob * pf_s)%Qc in
  (pf, (u_prob * u_prob * var_s / (pf * pf))%Qc).

(** [cov > cov_t], for [cov] given by its square *)
Definition above (cov2 cov_t : Qc) : bool := qc_ltb cov_t 0%Qc || qc_ltb (cov_t * cov_t)%Qc cov2.

(** branch.py 786-846, 895-941: the loop and the result on the outcomes [draws]; [Ok None]
    means that the loop goes on after them.  [cint] is bound when a sample beyond the
    ninth was drawn; otherwise reading it for the result raises UnboundLocalError. *)
Fixpoint mcs_loop (sys_fun : sysfun) (pf_low u_prob cov_t : Qc) (nsamp nfail : Z) (pf cov2 : Qc)
    (draws : list (res (dict Z))) : res (option estimate) :=
  if above cov2 cov_t then
    match draws with
    | [] => Ok None
    | d :: draws' =>
        x <- d ;;
        let nsamp' := nsamp + 1 in
        let nfail' := match snd (fst (sys_fun x)) with F_ => nfail + 1 | _ => nfail end in
        let est := if 9 <? nsamp' then posterior pf_low u_prob nsamp' nfail' else (pf, cov2) in
        mcs_loop sys_fun pf_low u_prob cov_t nsamp' nfail' (fst est) (snd est) draws'
    end
  else if 9 <? nsamp then Ok (Some (mkEst pf cov2 nsamp)) else Err UnboundLocalError.

(** branch.py 862-944 [mcs_unknown_simple] *)
Definition mcs_unknown_simple (brs : list branch) (sys_fun : sysfun) (cov_t : Qc) (draws : list (res (dict Z)))
  : res (option estimate) :=
  mcs_loop sys_fun (mcs_pf_low brs) (mcs_u_prob brs) cov_t 0 0 0%Qc 1%Qc draws.

(** A CPM with its samples (cpm.py 36-46): [Cs], [q], [sample_idx]; [ps] is not touched here *)
Record scpm : Type := mkScpm { sc_vars : list variable; sc_Cs : list (list Z); sc_q : list Qc; sc_idx : list Z }.

(** cpm.py 117-132, setter of [Cs]: a vector becomes one column; the largest entry of a
    column, or 0, may not exceed the number of the variable's values (one column is
    compared with every variable) *)
Definition cs_col_ok (C : list (list Z)) (iv : nat * variable) : bool :=
  forallb (fun row => at_ row (fst iv) <=? nvals (snd iv)) C.
Definition set_Cs_vec (M : scpm) (col : list Z) : res scpm :=
  let C := map (fun x => [x]) col in
  if forallb (fun v => cs_col_ok C (0%nat, v)) (sc_vars M)
  then Ok (mkScpm (sc_vars M) C (sc_q M) (sc_idx M)) else Err AssertionError.
Definition set_Cs_mat (M : scpm) (C : list (list Z)) : res scpm :=
  if forallb (fun row => (List.length row =? List.length (sc_vars M))%nat) C
     && forallb (cs_col_ok C) (combine (seq 0 (List.length (sc_vars M))) (sc_vars M))
  then Ok (mkScpm (sc_vars M) C (sc_q M) (sc_idx M)) else Err AssertionError.
(** cpm.py 138-151 and 176-189, setters of [q] and [sample_idx]: the lengths are
    compared if the new value and [Cs] both have entries *)
Definition len_ok {A} (l : list A) (Cs : list (list Z)) : bool :=
  (List.length l =? 0)%nat || (List.length Cs =? 0)%nat || (List.length l =? List.length Cs)%nat.
Definition set_q (M : scpm) (q : list Qc) : res scpm :=
  if len_ok q (sc_Cs M)
  then Ok (mkScpm (sc_vars M) (sc_Cs M) q (sc_idx M)) else Err AssertionError.
Definition set_idx (M : scpm) (i : list Z) : res scpm :=
  if len_ok i (sc_Cs M)
  then Ok (mkScpm (sc_vars M) (sc_Cs M) (sc_q M) i) else Err AssertionError.

(** [Csys[:, i] = col] *)
Fixpoint set_col (i : nat) (col : list Z) (C : list (list Z)) : list (list Z) :=
  match col, C with
  | x :: col', row :: C' => (firstn i row ++ x :: skipn (S i) row) :: set_col i col' C'
  | _, _ => C
  end.

(** branch.py 849-855: the loop over [cpms[sys_name].variables[1:]]; [i] is the column.
    [Csys] has the columns 0, ..., width - 1.  The keys [v.name] of [cpms] hold distinct CPMs. *)
Fixpoint alloc (samples : list (dict Z)) (sprobs : list (dict Qc)) (width i : nat) (vs : list variable)
    (cpms : dict scpm) (Csys : list (list Z)) : res (dict scpm * list (list Z)) :=
  match vs with
  | [] => Ok (cpms, Csys)
  | v :: vs' =>
      col <- mapM (fun s => dget s (v_name v)) samples ;;
      M <- dget cpms (v_name v) ;;
      M <- set_Cs_vec M col ;;
      q <- mapM (fun s => dget s (v_name v)) sprobs ;;
      M <- set_q M q ;;
      M <- set_idx M (map Z.of_nat (seq 0 (List.length samples))) ;;
      if (i <? width)%nat
      then alloc samples sprobs width (S i) vs' (dset cpms (v_name v) M) (set_col i col Csys)
      else Err IndexError
  end.

(** branch.py 845-860: the samples are stored in the CPMs *)
Definition store_samples (probs : prob_dict) (samples : list (dict Z)) (sprobs : list (dict Qc)) (states : list Z)
    (cpms : dict scpm) (sys_name : string) : res (dict scpm) :=
  let Csys := map (fun s => s :: repeat 0 (List.length probs)) states in
  Ms <- dget cpms sys_name ;;
  r <- alloc samples sprobs (S (List.length probs)) 1 (tl (sc_vars Ms)) cpms Csys ;;
  Ms <- dget (fst r) sys_name ;;
  Ms <- set_Cs_mat Ms (snd r) ;;
  Ms <- set_q Ms (map (fun _ => 1%Qc) samples) ;;
  Ms <- set_idx Ms (map Z.of_nat (seq 0 (List.length samples))) ;;
  Ok (dset (fst r) sys_name Ms).

(** branch.py 811-824: state probabilities and system state of one sample *)
Definition sample_probs (probs : prob_dict) (x : dict Z) : res (dict Qc) :=
  mapM (fun kv => q <- p_state probs (fst kv) (snd kv) ;; Ok (fst kv, q)) x.
Definition sys_state (sys_fun : sysfun) (x : dict Z) : Z :=
  match snd (fst (sys_fun x)) with F_ => 0 | _ => 1 end.

(** branch.py 751-860 [mcs_unknown_using_cpms]: the loop is that of [mcs_unknown_simple]
    except for the state probabilities, which are read for each sample *)
Definition with_probs (probs : prob_dict) (d : res (dict Z)) : res (dict Z) :=
  x <- d ;; _ <- sample_probs probs x ;; Ok x.
Definition mcs_unknown_using_cpms (brs : list branch) (probs : prob_dict) (sys_fun : sysfun)
    (cpms : dict scpm) (sys_name : string) (cov_t : Qc) (draws : list (res (dict Z)))
  : res (option (dict scpm * estimate)) :=
  r <- mcs_unknown_simple brs sys_fun cov_t (map (with_probs probs) draws) ;;
  match r with
  | None => Ok None
  | Some est =>
      samples <- mapM (fun d => d) (firstn (Z.to_nat (e_nsamp est)) draws) ;;
      sprobs <- mapM (sample_probs probs) samples ;;
      cpms' <- store_samples probs samples sprobs (map (sys_state sys_fun) samples) cpms sys_name ;;
      Ok (Some (cpms', est))
  end.

(** brc.py 505-508: the sample of [run_MCS_indep_comps]; the distributions are
    dictionaries ([v.keys()]: a list raises AttributeError) *)
Definition draw_dict (d : pdist) : res (list (Qc * Z)) :=
  match d with
  | PDict kv => np_choice (map fst kv) (map snd kv)
  | PList _ => Err AttributeError
  end.
Fixpoint draw_indep (probs : prob_dict) : list (Qc * res (dict Z)) :=
  match probs with
  | [] => [(1%Qc, Ok [])]
  | (k, d) :: probs' =>
      match draw_dict d with
      | Err x => [(1%Qc, Err x)]
      | Ok os => flat_map (fun o => map (fun r => ((fst o * fst r)%Qc, (x <- snd r ;; Ok ((k, snd o) :: x))))
                                        (draw_indep probs')) os
      end
  end.

(** brc.py 497-522 [run_MCS_indep_comps] on the outcomes [draws].  [pf] is unbound before
    the first failure; it is read for the result and for the line that is printed after
    each 20000 samples. *)
Fixpoint indep_loop (sys_fun : sysfun) (cov_t : Qc) (nsamp nfail : Z) (pf : option Qc) (cov2 : Qc)
    (draws : list (res (dict Z))) : res (option estimate) :=
  if above cov2 cov_t then
    match draws with
    | [] => Ok None
    | d :: draws' =>
        x <- d ;;
        let nsamp' := nsamp + 1 in
        match snd (fst (sys_fun x)) with
        | F_ =>
            let nfail' := nfail + 1 in
            let pf' := (qz nfail' / qz nsamp')%Qc in
            let cov2' := if 5 <? nfail' then (pf' * (1 - pf') / qz nsamp' / (pf' * pf'))%Qc else cov2 in
            indep_loop sys_fun cov_t nsamp' nfail' (Some pf') cov2' draws'
        | _ =>
            if (nsamp' mod 20000 =? 0) && match pf with None => true | Some _ => false end
            then Err UnboundLocalError
            else indep_loop sys_fun cov_t nsamp' nfail pf cov2 draws'
        end
    end
  else match pf with Some p => Ok (Some (mkEst p cov2 nsamp)) | None => Err UnboundLocalError end.
Definition run_MCS_indep_comps (sys_fun : sysfun) (cov_t : Qc) (draws : list (res (dict Z))) : res (option estimate) :=
  indep_loop sys_fun cov_t 0 0 None 1%Qc draws.
