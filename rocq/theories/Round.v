(** brc.py and branch.py with rounded arithmetic.  Everywhere else in this
    development floats are exact rationals; here every operation of the
    computation of probabilities and bounds is followed by a rounding [rnd].
    The definitions follow those of Brc.v with the same simplifications. *)
From Coq Require Import ZArith List String Bool QArith Qcanon.
From Verif Require Import Py Num Vari Brc.
Import ListNotations.
Open Scope Z_scope.
Open Scope list_scope.

Section Round.
Variable rnd : Qc -> Qc.

(** Python's [sum] of a list of floats, from the left (up to Python 3.11; later
    versions add more precisely) *)
Definition r_sum (l : list Qc) : Qc := fold_left (fun a x => rnd (a + x)%Qc) l 0%Qc.

(** branch.py 31, 152, 158: the probabilities of the states are read as rounded
    numbers *)
Definition r_range (probs : prob_dict) (k : string) (a b : Z) : res Qc :=
  l <- mapM (fun x => d <- dget probs k ;; q <- pget d x ;; Ok (rnd q)) (zrange a b) ;; Ok (r_sum l).

(** branch.py 26-33 [approx_prob_by_comps] *)
Definition r_approx (down up : dict Z) (probs : prob_dict) : res Qc :=
  foldM (fun p kv => u <- dget up (fst kv) ;;
                     q <- r_range probs (fst kv) (snd kv) (u + 1) ;; Ok (rnd (p * q)%Qc))
        down 1%Qc.

(** branch.py 148-161 [Branch.approx_joint_prob_compat_rule] *)
Definition r_joint (br : branch) (rule : dict Z) (rule_st : st) (probs : prob_dict) : res Qc :=
  match rule_st with
  | S_ => foldM (fun p kv => u <- dget (b_up br) (fst kv) ;;
                             q <- r_range probs (fst kv) (snd kv) (u + 1) ;; Ok (rnd (p * q)%Qc)) rule 1%Qc
  | F_ => foldM (fun p kv => d <- dget (b_down br) (fst kv) ;;
                             q <- r_range probs (fst kv) d (snd kv + 1) ;; Ok (rnd (p * q)%Qc)) rule 1%Qc
  | U_ => Ok 1%Qc
  end.

(** branch.py 164-196 [Branch.get_decomp_comp_using_probs] *)
Definition r_decomp_comp (br : branch) (rules : ruleset) (probs : prob_dict) : res (option (string * Z)) :=
  let rules_st := map (fun r => (S_, r)) (r_s rules) ++ map (fun r => (F_, r)) (r_f rules) in
  let comps := most_common (flat_map (fun sr => keys (snd sr)) rules_st) in
  sorted <-
    (if (1 <? List.length rules_st)%nat then
       ks <- mapM (fun sr => q <- r_joint br (snd sr) (fst sr) probs ;; Ok (q, sr)) rules_st ;;
       Ok (map snd (sort_desc (fun y x => qc_ltb (fst x) (fst y)) ks))
     else Ok rules_st) ;;
  decomp_in_rules br sorted comps.

(** branch.py 198-221 [Branch.get_new_branch] *)
Definition r_new_branch (br : branch) (rules : ruleset) (probs : prob_dict)
    (xd : string) (xd_st : Z) (up_flag : bool) : res branch :=
  if up_flag then
    let up := dset (b_up br) xd (xd_st - 1) in
    up_st <- get_state up rules ;;
    b <- mk_branch (b_down br) up (b_down_state br) up_st 0%Qc ;;
    p <- r_approx (b_down br) up probs ;;
    Ok (mkBr (b_down b) (b_up b) (b_down_state b) (b_up_state b) p)
  else
    let down := dset (b_down br) xd xd_st in
    down_st <- get_state down rules ;;
    b <- mk_branch down (b_up br) down_st (b_up_state br) 0%Qc ;;
    p <- r_approx down (b_up br) probs ;;
    Ok (mkBr (b_down b) (b_up b) (b_down_state b) (b_up_state b) p).

(** brc.py 409-436, the for loop of [decomp_depth_first] (see [decomp_pass]) *)
Fixpoint r_pass (rules : ruleset) (probs : prob_dict) (max_nb : option Z) (nb : nat)
    (todo acc : list (branch * ruleset)) : res (list (branch * ruleset) * bool) :=
  match todo with
  | [] => Ok (acc, true)
  | (br0, cr) :: rest =>
      br <- eval_state br0 rules ;;
      if keep_branch br cr then
        r_pass rules probs max_nb nb rest (acc ++ [(br, mkRules [] [])])
      else
        o <- r_decomp_comp br cr probs ;;
        match o with
        | None => Err TypeError
        | Some (xd, xd_st) =>
            b1 <- r_new_branch br rules probs xd xd_st true ;;
            c1 <- get_compat_rules b1 rules ;;
            b2 <- r_new_branch br rules probs xd xd_st false ;;
            c2 <- get_compat_rules b2 rules ;;
            let acc' := acc ++ [(b1, c1); (b2, c2)] in
            if gt_bound (Z.of_nat (List.length acc' + nb)) max_nb then Ok (acc' ++ rest, false)
            else r_pass rules probs max_nb nb rest acc'
        end
  end.

(** brc.py 399-442, its while loop *)
Fixpoint r_loop (fuel : nat) (rules : ruleset) (probs : prob_dict) (max_nb : option Z)
    (bcs : list (branch * ruleset)) : res (list (branch * ruleset)) :=
  match fuel with
  | O => Err OutOfFuel
  | S fuel' =>
      let sorted := sort_desc (fun y x => qc_ltb (b_p (fst x)) (b_p (fst y))) bcs in
      '(bcs', go) <- r_pass rules probs max_nb (List.length sorted) sorted [] ;;
      if (go : bool) && negb (forallb (fun bc => no_rules (snd bc)) bcs')
      then r_loop fuel' rules probs max_nb bcs'
      else Ok bcs'
  end.

(** brc.py 389-444 [decomp_depth_first] *)
Definition r_decomp (varis : dict variable) (rules : ruleset) (probs : prob_dict)
    (max_nb : option Z) (brs : list branch) : res (list branch) :=
  brs0 <- (match brs with [] => init_branch varis rules | _ => Ok brs end) ;;
  crules <- mapM (fun br => get_compat_rules br rules) brs0 ;;
  bcs <- r_loop (decomp_fuel brs0) rules probs max_nb (combine brs0 crules) ;;
  Ok (map fst bcs).

(** brc.py 474-484 (see [unknown_ends]) *)
Fixpoint r_unknown_ends (worst best : dict Z) (probs : prob_dict) (brs : list branch)
    (last : option branch) (acc : list branch) : res (list branch) :=
  match brs with
  | [] => Ok acc
  | br :: rest =>
      '(last1, acc1) <-
        (if st_eqb (b_up_state br) U_ then
           p_new <- r_approx (b_up br) best probs ;;
           br_new <- mk_branch (b_up br) best U_ S_ p_new ;;
           Ok (Some br_new, acc ++ [br_new])
         else Ok (last, acc)) ;;
      acc2 <-
        (if st_eqb (b_down_state br) U_ then
           p_new <- r_approx worst (b_down br) probs ;;
           b_new <- mk_branch worst (b_down br) F_ U_ p_new ;;
           match last1 with
           | None => Err UnboundLocalError
           | Some b => Ok (acc1 ++ [b])
           end
         else Ok acc1) ;;
      r_unknown_ends worst best probs rest last1 acc2
  end.

(** brc.py 447-494 [get_comp_st] *)
Definition r_comp_st (brs : list branch) (surv_first : bool) (varis : dict variable)
    (probs : prob_dict) : res (option (dict Z)) :=
  if surv_first then
    let sorted := sort_desc br_gtb brs in
    match find (fun br => st_eqb (b_up_state br) U_) sorted with
    | Some br => Ok (Some (b_up br))
    | None =>
        match find (fun br => st_eqb (b_down_state br) U_) sorted with
        | Some br => Ok (Some (b_down br))
        | None => Ok None
        end
    end
  else
    l <- r_unknown_ends (worst_of varis) (best_of varis) probs brs None [] ;;
    match sort_desc br_gtb l with
    | [] => Ok None
    | b :: _ => if st_eqb (b_up_state b) U_ then Ok (Some (b_up b))
                else if st_eqb (b_down_state b) U_ then Ok (Some (b_down b))
                else Ok None
    end.

(** brc.py 162-167: the bounds in [update_monitor] *)
Definition r_low (brs : list branch) : Qc := r_sum (map b_p (filter (fun b => st_eqb (b_up_state b) F_) brs)).
Definition r_surv (brs : list branch) : Qc := r_sum (map b_p (filter (fun b => st_eqb (b_down_state b) S_) brs)).
Definition r_up (brs : list branch) : Qc := rnd (1 - r_surv brs)%Qc.

(** brc.py 158-207 [update_monitor].  The other entries are integers or, like
    'avg_len_rf', play no part; they are kept as in Brc.v. *)
Definition r_monitor (m : monitor) (brs : list branch) (rules : ruleset) : monitor * ctrl :=
  let bu := rnd (rnd (1 - r_low brs) - r_surv brs)%Qc in
  let '(m', c) := update_monitor m brs rules in
  (mkMon (m_pf_up m ++ [r_up brs]) (m_pf_low m ++ [r_low brs]) (m_pr_bu m ++ [bu])
         (m_no_br m') (m_no_bs m') (m_no_bf m') (m_no_bu m') (m_no_rs m') (m_no_rf m') (m_no_ra m')
         (m_no_sf m') (m_min_len_rf m') (m_avg_len_rf m') (m_out_flag m'),
   mkCtrl (c_no_sf c) bu (r_low brs)).

(** brc.py 43-109, the loop body of [run] *)
Definition r_body (varis : dict variable) (probs : prob_dict) (sys_fun : sysfun) (g : config)
    (s : rstate) : res (rstate + rstate) :=
  brs <- (if g_active g then r_decomp varis (s_rules s) probs (g_max_nb g) []
          else r_decomp varis (s_rules s) probs (g_max_nb g)
                 (match s_brs s with None => [] | Some b => b end)) ;;
  x_star <- r_comp_st brs (g_surv_first g) varis probs ;;
  let stop f := Ok (inl (mkSt (Some brs) (s_rules s) (s_sys s) (set_flag (s_mon s) f) (s_ctrl s))) in
  match x_star with
  | None => stop O_complete
  | Some x =>
      if ge_bound (len brs) (g_max_nb g) then stop O_max_nb
      else if qc_ltb (c_pr_bu (s_ctrl s)) (rnd (c_pf_low (s_ctrl s) * g_pf_bnd_wr g))%Qc then stop O_pf_bnd
      else if ge_bound (len (r_s (s_rules s) ++ r_f (s_rules s))) (g_max_rules g) then stop O_max_rules
      else
        '(rule, sst, sres) <- run_sys_fn x sys_fun varis ;;
        rules' <- update_rule_set (s_rules s) rule sst ;;
        let no_sf := c_no_sf (s_ctrl s) + 1 in
        let '(mon, ctl) := r_monitor (push_no_sf (s_mon s) no_sf) brs rules' in
        let mon' := if c_no_sf ctl =? g_max_sf g then set_flag mon O_max_sf else mon in
        Ok (inr (mkSt (Some brs) rules' (s_sys s ++ [sres]) mon' ctl))
  end.

(** brc.py 42-113, the loop *)
Fixpoint r_run_loop (fuel : nat) (varis : dict variable) (probs : prob_dict) (sys_fun : sysfun)
    (g : config) (s : rstate) : res rstate :=
  match fuel with
  | O => Err OutOfFuel
  | S fuel' =>
      if c_no_sf (s_ctrl s) <? g_max_sf g then
        o <- r_body varis probs sys_fun g s ;;
        match o with
        | inl s' => Ok s'
        | inr s' => r_run_loop fuel' varis probs sys_fun g s'
        end
      else Ok s
  end.

(** brc.py 17-123 [run] *)
Definition r_run (varis : dict variable) (probs : prob_dict) (sys_fun : sysfun) (g : config)
    (rules : option ruleset) (brs : option (list branch)) : res rstate :=
  let rules0 := match rules with Some r => r | None => mkRules [] [] end in
  let '(m0, c0) := init_monitor in
  s <- r_run_loop (S (Z.to_nat (g_max_sf g))) varis probs sys_fun g (mkSt brs rules0 [] m0 c0) ;;
  if 0 <? g_max_sf g then
    match s_brs s with
    | None => Err TypeError
    | Some b => let '(m, c) := r_monitor (s_mon s) b (s_rules s) in
                Ok (mkSt (Some b) (s_rules s) (s_sys s) m c)
    end
  else Ok s.

End Round.
