(** Model of /repo/BNS_JT/brc.py and of class Branch in /repo/BNS_JT/branch.py. *)
From Coq Require Import ZArith List String Bool Arith QArith Qcanon.
From Verif Require Import Py Num Vari.
Import ListNotations.
Open Scope string_scope.
Open Scope Z_scope.
Open Scope list_scope.

(** System states 's', 'f', 'u'. *)
Inductive st : Set := S_ | F_ | U_.

Definition st_eqb (a b : st) : bool :=
  match a, b with S_, S_ | F_, F_ | U_, U_ => true | _, _ => false end.

(** [probs[k]] is either a list or a dictionary indexed by the state. *)
Inductive pdist : Type :=
| PList (l : list Qc)
| PDict (l : list (Z * Qc)).

Fixpoint zfind {A} (l : list (Z * A)) (x : Z) : option A :=
  match l with
  | [] => None
  | (y, a) :: l' => if x =? y then Some a else zfind l' x
  end.

Definition pget (d : pdist) (x : Z) : res Qc :=
  match d with
  | PList l => py_index l x
  | PDict l => match zfind l x with Some q => Ok q | None => Err KeyError end
  end.

Definition prob_dict := dict pdist.

(** [rules = {'s': [...], 'f': [...]}] *)
Record ruleset : Type := mkRules { r_s : list (dict Z); r_f : list (dict Z) }.

(** branch.py 36-48.  [down_state], [up_state] and [p] always have a value in
    the code modelled here ([get_new_branch] sets [p] right after creation). *)
Record branch : Type := mkBr {
  b_down : dict Z;
  b_up : dict Z;
  b_down_state : st;
  b_up_state : st;
  b_p : Qc
}.

(** branch.py 42 *)
Definition mk_branch (down up : dict Z) (ds us : st) (p : Qc) : res branch :=
  if (List.length down =? List.length up)%nat then Ok (mkBr down up ds us p)
  else Err AssertionError.

(** [sum([probs[k][x] for x in range(a, b)])] *)
Definition sum_range (probs : prob_dict) (k : string) (a b : Z) : res Qc :=
  l <- mapM (fun x => d <- dget probs k ;; pget d x) (zrange a b) ;; Ok (qsum l).

(** branch.py 26-33 [approx_prob_by_comps] *)
Definition approx_prob_by_comps (down up : dict Z) (probs : prob_dict) : res Qc :=
  foldM (fun p kv => u <- dget up (fst kv) ;;
                     q <- sum_range probs (fst kv) (snd kv) (u + 1) ;; Ok (p * q)%Qc)
        down 1%Qc.

(** [all([d[k] >= v for k, v in rule.items()])] and its mirror image *)
Definition all_ge (d rule : dict Z) : res bool :=
  allM (fun kv => x <- dget d (fst kv) ;; Ok (snd kv <=? x)) rule.
Definition all_le (d rule : dict Z) : res bool :=
  allM (fun kv => x <- dget d (fst kv) ;; Ok (x <=? snd kv)) rule.

(** [{k: v for k, v in rule.items() if cond}] *)
Fixpoint filterM {A} (f : A -> res bool) (l : list A) : res (list A) :=
  match l with
  | [] => Ok []
  | a :: l' => b <- f a ;; r <- filterM f l' ;; Ok (if b then a :: r else r)
  end.

(** branch.py 75-102 [Branch.get_compat_rules] *)
Definition compat_list (all_cmp : dict Z -> res bool) (keep : string * Z -> res bool)
    (rules : list (dict Z)) : res (list (dict Z)) :=
  foldM (fun acc rule =>
           b <- all_cmp rule ;;
           if b then
             c_rule <- filterM keep rule ;;
             Ok (match c_rule with [] => acc | _ => acc ++ [c_rule] end)
           else Ok acc) rules [].

Definition get_compat_rules (br : branch) (rules : ruleset) : res ruleset :=
  s <- compat_list (all_ge (b_up br))
         (fun kv => x <- dget (b_down br) (fst kv) ;; Ok (x <? snd kv)) (r_s rules) ;;
  f <- compat_list (all_le (b_down br))
         (fun kv => x <- dget (b_up br) (fst kv) ;; Ok (snd kv <? x)) (r_f rules) ;;
  Ok (mkRules s f).

(** One loop of [eval_state]: stops as soon as the state is known. *)
Fixpoint eval_loop (test : dict Z -> res bool) (res_st : st) (rules : list (dict Z)) (cur : st) : res st :=
  match rules with
  | [] => Ok cur
  | r :: rs =>
      if negb (st_eqb cur U_) then Ok cur
      else b <- test r ;; eval_loop test res_st rs (if b then res_st else cur)
  end.

(** branch.py 104-145 [Branch.eval_state]; returns the updated branch *)
Definition eval_state (br : branch) (rules : ruleset) : res branch :=
  us <- eval_loop (all_ge (b_up br)) S_ (r_s rules) (b_up_state br) ;;
  ds <- eval_loop (all_ge (b_down br)) S_ (r_s rules) (b_down_state br) ;;
  us' <- eval_loop (all_le (b_up br)) F_ (r_f rules) us ;;
  ds' <- eval_loop (all_le (b_down br)) F_ (r_f rules) ds ;;
  Ok (mkBr (b_down br) (b_up br) ds' us' (b_p br)).

(** branch.py 148-161 [Branch.approx_joint_prob_compat_rule]; 'u' never occurs *)
Definition approx_joint_prob (br : branch) (rule : dict Z) (rule_st : st) (probs : prob_dict) : res Qc :=
  match rule_st with
  | S_ => foldM (fun p kv => u <- dget (b_up br) (fst kv) ;;
                             q <- sum_range probs (fst kv) (snd kv) (u + 1) ;; Ok (p * q)%Qc) rule 1%Qc
  | F_ => foldM (fun p kv => d <- dget (b_down br) (fst kv) ;;
                             q <- sum_range probs (fst kv) d (snd kv + 1) ;; Ok (p * q)%Qc) rule 1%Qc
  | U_ => Ok 1%Qc
  end.

(** [Counter(...)]: counts in order of first occurrence *)
Fixpoint counter_add (c : list (string * nat)) (x : string) : list (string * nat) :=
  match c with
  | [] => [(x, 1%nat)]
  | (y, n) :: c' => if String.eqb x y then (y, S n) :: c' else (y, n) :: counter_add c' x
  end.
Definition counter (l : list string) : list (string * nat) := fold_left counter_add l [].
(** [Counter.most_common()]: stable, by descending count *)
Definition most_common (l : list string) : list string :=
  map fst (sort_desc (fun y x => (snd x <? snd y)%nat) (counter l)).

(** One rule of the loop at branch.py 182-196: the first component of [comps]
    that occurs in the rule with a usable state.  A component that does not
    occur leaves [state = None], and the comparison's TypeError is swallowed. *)
Fixpoint decomp_in_rule (br : branch) (s : st) (rule : dict Z) (comps : list string)
  : res (option (string * Z)) :=
  match comps with
  | [] => Ok None
  | c :: cs =>
      d <- dget (b_down br) c ;;
      match dfind rule c with
      | None => decomp_in_rule br s rule cs
      | Some v =>
          let state := match s with S_ => v | _ => v + 1 end in
          if d <? state then
            u <- dget (b_up br) c ;;
            if state <=? u then Ok (Some (c, state)) else decomp_in_rule br s rule cs
          else decomp_in_rule br s rule cs
      end
  end.

Fixpoint decomp_in_rules (br : branch) (rules_st : list (st * dict Z)) (comps : list string)
  : res (option (string * Z)) :=
  match rules_st with
  | [] => Ok None
  | (s, rule) :: rs =>
      o <- decomp_in_rule br s rule comps ;;
      match o with Some x => Ok (Some x) | None => decomp_in_rules br rs comps end
  end.

(** branch.py 164-196 [Branch.get_decomp_comp_using_probs]; [None] is Python's
    implicit [return None].  The rule dictionary built by [get_compat_rules]
    has the keys in the order 's', 'f'. *)
Definition get_decomp_comp (br : branch) (rules : ruleset) (probs : prob_dict) : res (option (string * Z)) :=
  let rules_st := map (fun r => (S_, r)) (r_s rules) ++ map (fun r => (F_, r)) (r_f rules) in
  let comps := most_common (flat_map (fun sr => keys (snd sr)) rules_st) in
  sorted <-
    (if (1 <? List.length rules_st)%nat then
       ks <- mapM (fun sr => q <- approx_joint_prob br (snd sr) (fst sr) probs ;; Ok (q, sr)) rules_st ;;
       Ok (map snd (sort_desc (fun y x => qc_ltb (fst x) (fst y)) ks))
     else Ok rules_st) ;;
  decomp_in_rules br sorted comps.

(** number of rules that match, brc.py 283-287 *)
Definition count_true (l : list bool) : nat := List.length (filter (fun b => b) l).

(** brc.py 269-303 [get_state]; the printed warning is not modelled *)
Definition get_state (comp : dict Z) (rules : ruleset) : res st :=
  ss <- mapM (all_ge comp) (r_s rules) ;;
  ff <- mapM (all_le comp) (r_f rules) ;;
  let no_s := count_true ss in
  let no_f := count_true ff in
  Ok (if (no_s =? 0)%nat && (no_f =? 0)%nat then U_
      else if (no_f <=? no_s)%nat then S_ else F_).

(** branch.py 198-221 [Branch.get_new_branch] *)
Definition get_new_branch (br : branch) (rules : ruleset) (probs : prob_dict)
    (xd : string) (xd_st : Z) (up_flag : bool) : res branch :=
  if up_flag then
    let up := dset (b_up br) xd (xd_st - 1) in
    up_st <- get_state up rules ;;
    b <- mk_branch (b_down br) up (b_down_state br) up_st 0%Qc ;;
    p <- approx_prob_by_comps (b_down br) up probs ;;
    Ok (mkBr (b_down b) (b_up b) (b_down_state b) (b_up_state b) p)
  else
    let down := dset (b_down br) xd xd_st in
    down_st <- get_state down rules ;;
    b <- mk_branch down (b_up br) down_st (b_up_state br) 0%Qc ;;
    p <- approx_prob_by_comps down (b_up br) probs ;;
    Ok (mkBr (b_down b) (b_up b) (b_down_state b) (b_up_state b) p).

(** [set(a).issubset(b)] on the keys of two dictionaries *)
Definition keys_subset (a b : dict Z) : bool := forallb (fun k => dmem b k) (keys a).

(** The loops of brc.py 319-339.  [dom n r]: rule [r] is made redundant by [n];
    the test reads [r[k]] only after the subset test succeeded ([and]). *)
Definition dominated (cmp : dict Z -> dict Z -> res bool) (n r : dict Z) : res bool :=
  if keys_subset n r then cmp r n else Ok false.

Fixpoint update_loop (cmp : dict Z -> dict Z -> res bool) (n_rule : dict Z)
    (copy cur : list (dict Z)) : res (list (dict Z) * bool) :=
  match copy with
  | [] => Ok (cur, true)
  | rule :: rest =>
      b1 <- dominated cmp n_rule rule ;;
      if b1 then update_loop cmp n_rule rest (remove_first (dict_eqb rule) cur)
      else
        b2 <- dominated cmp rule n_rule ;;
        if b2 then Ok (cur, false) else update_loop cmp n_rule rest cur
  end.

(** brc.py 306-344 [update_rule_set]; a state other than 's' and 'f' is a
    KeyError at line 342.  The Python function updates the dictionary in place
    and returns it. *)
Definition update_rule_set (rules : ruleset) (n_rule : dict Z) (n_state : st) : res ruleset :=
  match n_state with
  | S_ => '(l, add) <- update_loop all_ge n_rule (r_s rules) (r_s rules) ;;
          Ok (mkRules (if add : bool then l ++ [n_rule] else l) (r_f rules))
  | F_ => '(l, add) <- update_loop all_le n_rule (r_f rules) (r_f rules) ;;
          Ok (mkRules (r_s rules) (if add : bool then l ++ [n_rule] else l))
  | U_ => Err KeyError
  end.

(** The user's system function: [sys_fun(comp) = (sys_val, sys_st, comp_st_min)];
    [comp_st_min] is None or a dictionary.  System values are idealised as
    rationals; they are only recorded. *)
Definition sysfun := dict Z -> Qc * st * option (dict Z).

(** one line of the result table *)
Definition sysres := (Qc * dict Z * option (dict Z))%type.

(** brc.py 347-372 [run_sys_fn] *)
Definition run_sys_fn (comp : dict Z) (sys_fun : sysfun) (varis : dict variable)
  : res (dict Z * st * sysres) :=
  let '(sys_val, sys_st, comp_min) := sys_fun comp in
  let sys_res := (sys_val, comp, comp_min) in
  match comp_min with
  | Some ((_ :: _) as m) => Ok (m, sys_st, sys_res)
  | _ =>
      match sys_st with
      | S_ => Ok (filter (fun kv => negb (snd kv =? 0)) comp, sys_st, sys_res)
      | _ => r <- filterM (fun kv => v <- dget varis (fst kv) ;; Ok (snd kv <? nvals v - 1)) comp ;;
             Ok (r, sys_st, sys_res)
      end
  end.

(** brc.py 380-381 *)
Definition worst_of (varis : dict variable) : dict Z := map (fun kv => (fst kv, 0)) varis.
Definition best_of (varis : dict variable) : dict Z :=
  map (fun kv => (fst kv, nvals (snd kv) - 1)) varis.

(** brc.py 375-386 [init_branch] *)
Definition init_branch (varis : dict variable) (rules : ruleset) : res (list branch) :=
  let down := worst_of varis in
  let up := best_of varis in
  ds <- get_state down rules ;;
  us <- get_state up rules ;;
  b <- mk_branch down up ds us 1%Qc ;;
  Ok [b].

(** A bound that may be infinite ([np.inf]). *)
Definition gt_bound (n : Z) (b : option Z) : bool :=
  match b with Some m => m <? n | None => false end.
Definition ge_bound (n : Z) (b : option Z) : bool :=
  match b with Some m => m <=? n | None => false end.

Definition no_rules (cr : ruleset) : bool :=
  (List.length (r_f cr) + List.length (r_s cr) =? 0)%nat.

(** test at brc.py 414 *)
Definition keep_branch (br : branch) (cr : ruleset) : bool :=
  (st_eqb (b_down_state br) (b_up_state br) && negb (st_eqb (b_down_state br) U_)) || no_rules cr.

(** The for loop at brc.py 409-436.  [nb] is [len(brs)]; the result carries the
    value of [go]. *)
Fixpoint decomp_pass (rules : ruleset) (probs : prob_dict) (max_nb : option Z) (nb : nat)
    (todo acc : list (branch * ruleset)) : res (list (branch * ruleset) * bool) :=
  match todo with
  | [] => Ok (acc, true)
  | (br0, cr) :: rest =>
      br <- eval_state br0 rules ;;
      if keep_branch br cr then
        decomp_pass rules probs max_nb nb rest (acc ++ [(br, mkRules [] [])])
      else
        o <- get_decomp_comp br cr probs ;;
        match o with
        | None => Err TypeError   (* xd, xd_st = None *)
        | Some (xd, xd_st) =>
            b1 <- get_new_branch br rules probs xd xd_st true ;;
            c1 <- get_compat_rules b1 rules ;;
            b2 <- get_new_branch br rules probs xd xd_st false ;;
            c2 <- get_compat_rules b2 rules ;;
            let acc' := acc ++ [(b1, c1); (b2, c2)] in
            if gt_bound (Z.of_nat (List.length acc' + nb)) max_nb then Ok (acc' ++ rest, false)
            else decomp_pass rules probs max_nb nb rest acc'
        end
  end.

(** The while loop at brc.py 399-442.  [copy.deepcopy] has no effect in the
    model (values are immutable). *)
Fixpoint decomp_loop (fuel : nat) (rules : ruleset) (probs : prob_dict) (max_nb : option Z)
    (bcs : list (branch * ruleset)) : res (list (branch * ruleset)) :=
  match fuel with
  | O => Err OutOfFuel
  | S fuel' =>
      let sorted := sort_desc (fun y x => qc_ltb (b_p (fst x)) (b_p (fst y))) bcs in
      '(bcs', go) <- decomp_pass rules probs max_nb (List.length sorted) sorted [] ;;
      if (go : bool) && negb (forallb (fun bc => no_rules (snd bc)) bcs')
      then decomp_loop fuel' rules probs max_nb bcs'
      else Ok bcs'
  end.

(** fuel: the largest total width of a branch, plus two *)
Definition width (br : branch) : nat :=
  fold_right Nat.add O
    (map (fun kv => match dfind (b_up br) (fst kv) with
                    | Some u => Z.to_nat (u - snd kv) | None => O end) (b_down br)).
Definition decomp_fuel (brs : list branch) : nat :=
  S (S (fold_right Nat.max O (map width brs))).

(** brc.py 389-444 [decomp_depth_first]; the second component (compatible
    rules) is dropped by the callers *)
Definition decomp_depth_first (varis : dict variable) (rules : ruleset) (probs : prob_dict)
    (max_nb : option Z) (brs : list branch) : res (list branch) :=
  brs0 <- (match brs with [] => init_branch varis rules | _ => Ok brs end) ;;
  crules <- mapM (fun br => get_compat_rules br rules) brs0 ;;
  bcs <- decomp_loop (decomp_fuel brs0) rules probs max_nb (combine brs0 crules) ;;
  Ok (map fst bcs).

Definition br_gtb (y x : branch) : bool := qc_ltb (b_p x) (b_p y).

(** The loop at brc.py 474-484.  [last] is the local variable [br_new], unbound
    until the first assignment; line 484 appends [br_new], not [b_new]. *)
Fixpoint unknown_ends (worst best : dict Z) (probs : prob_dict) (brs : list branch)
    (last : option branch) (acc : list branch) : res (list branch) :=
  match brs with
  | [] => Ok acc
  | br :: rest =>
      '(last1, acc1) <-
        (if st_eqb (b_up_state br) U_ then
           p_new <- approx_prob_by_comps (b_up br) best probs ;;
           br_new <- mk_branch (b_up br) best U_ S_ p_new ;;
           Ok (Some br_new, acc ++ [br_new])
         else Ok (last, acc)) ;;
      acc2 <-
        (if st_eqb (b_down_state br) U_ then
           p_new <- approx_prob_by_comps worst (b_down br) probs ;;
           b_new <- mk_branch worst (b_down br) F_ U_ p_new ;;
           match last1 with
           | None => Err UnboundLocalError
           | Some b => Ok (acc1 ++ [b])
           end
         else Ok acc1) ;;
      unknown_ends worst best probs rest last1 acc2
  end.

(** brc.py 447-494 [get_comp_st] *)
Definition get_comp_st (brs : list branch) (surv_first : bool) (varis : dict variable)
    (probs : prob_dict) : res (option (dict Z)) :=
  if surv_first then
    let sorted := sort_desc br_gtb brs in
    match find (fun br => st_eqb (b_up_state br) U_) sorted with
    | Some br => Ok (Some (b_up br))
    | None =>
        match find (fun br => st_eqb (b_down_state br) U_) sorted with
        | Some br => Ok (Some (b_down br))
        | None => Ok None
        end
    end
  else
    l <- unknown_ends (worst_of varis) (best_of varis) probs brs None [] ;;
    match sort_desc br_gtb l with
    | [] => Ok None
    | b :: _ => if st_eqb (b_up_state b) U_ then Ok (Some (b_up b))
                else if st_eqb (b_down_state b) U_ then Ok (Some (b_down b))
                else Ok None
    end.

(** Values of [monitor['out_flag']]. *)
Inductive oflag : Set := O_complete | O_max_nb | O_pf_bnd | O_max_rules | O_max_sf.

(** brc.py 127-145.  The entries 'time' and 'max_bu' (never updated) are left out. *)
Record monitor : Type := mkMon {
  m_pf_up : list Qc; m_pf_low : list Qc; m_pr_bu : list Qc;
  m_no_br : list Z; m_no_bs : list Z; m_no_bf : list Z; m_no_bu : list Z;
  m_no_rs : list Z; m_no_rf : list Z; m_no_ra : list Z;
  m_no_sf : list Z;
  m_min_len_rf : list Z; m_avg_len_rf : list Qc;
  m_out_flag : option oflag
}.

(** brc.py 149-153; 'no_bu' is never read *)
Record ctrl : Type := mkCtrl { c_no_sf : Z; c_pr_bu : Qc; c_pf_low : Qc }.

Definition init_monitor : monitor * ctrl :=
  (mkMon [] [] [] [] [] [] [] [] [] [] [0] [] [] None, mkCtrl 0 1%Qc 0%Qc).

Definition len {A} (l : list A) : Z := Z.of_nat (List.length l).

Definition pr_bf (brs : list branch) : Qc :=
  qsum (map b_p (filter (fun br => st_eqb (b_up_state br) F_) brs)).
Definition pr_bs (brs : list branch) : Qc :=
  qsum (map b_p (filter (fun br => st_eqb (b_down_state br) S_) brs)).

(** brc.py 158-207 [update_monitor].  [monitor['no_sf']] is never empty. *)
Definition update_monitor (m : monitor) (brs : list branch) (rules : ruleset) : monitor * ctrl :=
  let bf := pr_bf brs in
  let bs := pr_bs brs in
  let no_rf := len (r_f rules) in
  let no_rs := len (r_s rules) in
  let no_br := len brs in
  let no_bf := len (filter (fun b => st_eqb (b_up_state b) F_) brs) in
  let no_bs := len (filter (fun b => st_eqb (b_down_state b) S_) brs) in
  let lens := map (fun r => len r) (r_f rules) in
  let min_len := match lens with [] => 0 | x :: xs => fold_left Z.min xs x end in
  let avg_len := match lens with [] => 0%Qc | _ => (qz (zsum lens) / qz no_rf)%Qc end in
  (mkMon (m_pf_up m ++ [(1 - bs)%Qc]) (m_pf_low m ++ [bf]) (m_pr_bu m ++ [(1 - bf - bs)%Qc])
         (m_no_br m ++ [no_br]) (m_no_bs m ++ [no_bs]) (m_no_bf m ++ [no_bf])
         (m_no_bu m ++ [no_br - no_bf - no_bs])
         (m_no_rs m ++ [no_rs]) (m_no_rf m ++ [no_rf]) (m_no_ra m ++ [no_rs + no_rf])
         (m_no_sf m)
         (m_min_len_rf m ++ [min_len]) (m_avg_len_rf m ++ [avg_len])
         (m_out_flag m),
   mkCtrl (last (m_no_sf m) 0) (1 - bf - bs)%Qc bf).

Definition set_flag (m : monitor) (f : oflag) : monitor :=
  mkMon (m_pf_up m) (m_pf_low m) (m_pr_bu m) (m_no_br m) (m_no_bs m) (m_no_bf m) (m_no_bu m)
        (m_no_rs m) (m_no_rf m) (m_no_ra m) (m_no_sf m) (m_min_len_rf m) (m_avg_len_rf m) (Some f).
Definition push_no_sf (m : monitor) (n : Z) : monitor :=
  mkMon (m_pf_up m) (m_pf_low m) (m_pr_bu m) (m_no_br m) (m_no_bs m) (m_no_bf m) (m_no_bu m)
        (m_no_rs m) (m_no_rf m) (m_no_ra m) (m_no_sf m ++ [n]) (m_min_len_rf m) (m_avg_len_rf m)
        (m_out_flag m).

(** Arguments of [run] other than the system itself.  [display_freq] only
    controls printing. *)
Record config : Type := mkCfg {
  g_max_sf : Z;
  g_max_nb : option Z;
  g_pf_bnd_wr : Qc;
  g_max_rules : option Z;
  g_surv_first : bool;
  g_active : bool
}.

(** local variables of the while loop of [run] *)
Record rstate : Type := mkSt {
  s_brs : option (list branch);    (* None only before the first decomposition *)
  s_rules : ruleset;
  s_sys : list sysres;
  s_mon : monitor;
  s_ctrl : ctrl
}.

(** One evaluation of the loop body, brc.py 43-109.  [inl] is [break] (or a
    false loop condition), [inr] continues the loop. *)
Definition run_body (varis : dict variable) (probs : prob_dict) (sys_fun : sysfun) (g : config)
    (s : rstate) : res (rstate + rstate) :=
  brs <- (if g_active g then decomp_depth_first varis (s_rules s) probs (g_max_nb g) []
          else decomp_depth_first varis (s_rules s) probs (g_max_nb g)
                 (match s_brs s with None => [] | Some b => b end)) ;;
  x_star <- get_comp_st brs (g_surv_first g) varis probs ;;
  let stop f := Ok (inl (mkSt (Some brs) (s_rules s) (s_sys s) (set_flag (s_mon s) f) (s_ctrl s))) in
  match x_star with
  | None => stop O_complete
  | Some x =>
      if ge_bound (len brs) (g_max_nb g) then stop O_max_nb
      else if qc_ltb (c_pr_bu (s_ctrl s)) (c_pf_low (s_ctrl s) * g_pf_bnd_wr g)%Qc then stop O_pf_bnd
      else if ge_bound (len (r_s (s_rules s) ++ r_f (s_rules s))) (g_max_rules g) then stop O_max_rules
      else
        '(rule, sst, sres) <- run_sys_fn x sys_fun varis ;;
        rules' <- update_rule_set (s_rules s) rule sst ;;
        let no_sf := c_no_sf (s_ctrl s) + 1 in
        let '(mon, ctl) := update_monitor (push_no_sf (s_mon s) no_sf) brs rules' in
        let mon' := if c_no_sf ctl =? g_max_sf g then set_flag mon O_max_sf else mon in
        Ok (inr (mkSt (Some brs) rules' (s_sys s ++ [sres]) mon' ctl))
  end.

Fixpoint run_loop (fuel : nat) (varis : dict variable) (probs : prob_dict) (sys_fun : sysfun)
    (g : config) (s : rstate) : res rstate :=
  match fuel with
  | O => Err OutOfFuel
  | S fuel' =>
      if c_no_sf (s_ctrl s) <? g_max_sf g then
        o <- run_body varis probs sys_fun g s ;;
        match o with
        | inl s' => Ok s'
        | inr s' => run_loop fuel' varis probs sys_fun g s'
        end
      else Ok s
  end.

(** brc.py 17-123 [run].  The result is [(brs, rules, sys_res, monitor)].
    [rules] None or {} (falsy) is replaced by empty rules.  When the loop body
    never ran, [start] is unbound and the NameError of line 115 is caught. *)
Definition run (varis : dict variable) (probs : prob_dict) (sys_fun : sysfun) (g : config)
    (rules : option ruleset) (brs : option (list branch)) : res rstate :=
  let rules0 := match rules with Some r => r | None => mkRules [] [] end in
  let '(m0, c0) := init_monitor in
  s <- run_loop (S (Z.to_nat (g_max_sf g))) varis probs sys_fun g (mkSt brs rules0 [] m0 c0) ;;
  if 0 <? g_max_sf g then
    match s_brs s with
    | None => Err TypeError      (* iteration over None; never happens *)
    | Some b => let '(m, c) := update_monitor (s_mon s) b (s_rules s) in
                Ok (mkSt (Some b) (s_rules s) (s_sys s) m c)
    end
  else Ok s.

(** branch.py 223-249 [Branch.get_c].  [st_br_to_cs] maps 's','f','u' to ints. *)
Fixpoint get_c_loop (br : branch) (names : list string) (varis : dict variable) (cst : list Z)
  : res (dict variable * list Z) :=
  match names with
  | [] => Ok (varis, cst)
  | x :: xs =>
      down <- dget (b_down br) x ;;
      up <- dget (b_up br) x ;;
      if down <? up then
        v <- dget varis x ;;
        '(v', c) <- get_composite_state v (zrange down (up + 1)) ;;
        get_c_loop br xs (dset varis x v') (cst ++ [c])
      else get_c_loop br xs varis (cst ++ [up])
  end.

Definition get_c (br : branch) (varis : dict variable) (st_br_to_cs : st -> res Z)
  : res (dict variable * list Z) :=
  s <- st_br_to_cs (if st_eqb (b_down_state br) (b_up_state br) then b_down_state br else U_) ;;
  get_c_loop br (keys (b_up br)) varis [s].

Fixpoint get_csys_loop (brs : list branch) (varis : dict variable) (st_br_to_cs : st -> res Z)
    (acc : list (list Z)) : res (list (list Z) * dict variable) :=
  match brs with
  | [] => Ok (acc, varis)
  | br :: rest =>
      '(varis', c) <- get_c br varis st_br_to_cs ;;
      get_csys_loop rest varis' st_br_to_cs (acc ++ [c])
  end.

(** brc.py 256-266 [get_csys]: [brs[0]] on an empty list is an IndexError; a row
    of another length is a ValueError of [np.vstack] *)
Definition get_csys (brs : list branch) (varis : dict variable) (st_br_to_cs : st -> res Z)
  : res (list (list Z) * dict variable) :=
  match brs with
  | [] => Err IndexError
  | b0 :: _ =>
      '(rows, varis') <- get_csys_loop brs varis st_br_to_cs [] ;;
      if forallb (fun r => (List.length r =? S (List.length (b_up b0)))%nat) rows
      then Ok (rows, varis') else Err ValueError
  end.

(** brc.py 525-549 [eval_rules_prob]; [probs] must be dictionaries for 's'
    ([probs[k].keys()]); [max] of an empty dictionary is a ValueError *)
Definition max_state (d : pdist) : res Z :=
  match d with
  | PList _ => Err AttributeError
  | PDict [] => Err ValueError
  | PDict ((x, _) :: l) => Ok (fold_left Z.max (map fst l) x)
  end.

Definition eval_rules_prob (rules_list : list (dict Z)) (s_or_f : st) (probs : prob_dict)
  : res (list Qc) :=
  match s_or_f with
  | F_ => mapM (fun r => foldM (fun p kv => q <- sum_range probs (fst kv) 0 (snd kv) ;; Ok (p * q)%Qc) r 1%Qc)
               rules_list
  | S_ => max_st <- mapM (fun kv => m <- max_state (snd kv) ;; Ok (fst kv, m)) probs ;;
          mapM (fun r => foldM (fun p kv =>
                  m <- dget max_st (fst kv) ;;
                  q <- sum_range probs (fst kv) (snd kv) (m + 1) ;; Ok (p * q)%Qc) r 1%Qc)
               rules_list
  | U_ => Err ValueError
  end.
