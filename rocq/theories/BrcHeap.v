(** Model of /repo/BNS_JT/brc.py [run] and of the parts of branch.py it uses, with
    the objects it shares: component vectors (dictionaries), branches and rule sets live
    in a heap and are passed by reference.  Code that only reads is that of Brc.v, applied
    to the objects as they look when it runs.  The system function may modify the
    dictionary that it is given.  The lists [brs] themselves are never modified in place,
    so they are lists of references. *)
From Coq Require Import ZArith List String Bool Arith QArith Qcanon.
From Verif Require Import Py Num Vari Brc.
Import ListNotations.
Open Scope string_scope.
Open Scope Z_scope.
Open Scope list_scope.

(** branch.py 36-48: a [Branch] holds references to its two dictionaries *)
Record bobj : Type := mkO { o_down : nat; o_up : nat; o_ds : st; o_us : st; o_p : Qc }.
Record heap : Type := mkHeap { h_ds : list (dict Z); h_bs : list bobj; h_rs : list ruleset }.

(** the objects as they look now; references never dangle *)
Definition hdict (h : heap) (r : nat) : dict Z := nth r (h_ds h) [].
Definition hobj (h : heap) (r : nat) : bobj := nth r (h_bs h) (mkO 0 0 U_ U_ 0%Qc).
Definition hrules (h : heap) (r : nat) : ruleset := nth r (h_rs h) (mkRules [] []).
Definition view (h : heap) (r : nat) : branch :=
  let o := hobj h r in mkBr (hdict h (o_down o)) (hdict h (o_up o)) (o_ds o) (o_us o) (o_p o).

(** new objects; assignment to an attribute, to a dictionary as a whole, to a rule set *)
Definition new_dict (h : heap) (d : dict Z) : heap * nat := (mkHeap (h_ds h ++ [d]) (h_bs h) (h_rs h), List.length (h_ds h)).
Definition new_obj (h : heap) (o : bobj) : heap * nat := (mkHeap (h_ds h) (h_bs h ++ [o]) (h_rs h), List.length (h_bs h)).
Definition new_rules (h : heap) (r : ruleset) : heap * nat := (mkHeap (h_ds h) (h_bs h) (h_rs h ++ [r]), List.length (h_rs h)).
Definition upd {A} (l : list A) (i : nat) (x : A) : list A := firstn i l ++ x :: skipn (S i) l.
Definition set_obj (h : heap) (r : nat) (o : bobj) : heap := mkHeap (h_ds h) (upd (h_bs h) r o) (h_rs h).
Definition set_us (h : heap) (r : nat) (s : st) : heap := let o := hobj h r in set_obj h r (mkO (o_down o) (o_up o) (o_ds o) s (o_p o)).
Definition set_ds (h : heap) (r : nat) (s : st) : heap := let o := hobj h r in set_obj h r (mkO (o_down o) (o_up o) s (o_us o) (o_p o)).
Definition set_dict (h : heap) (r : nat) (d : dict Z) : heap := mkHeap (upd (h_ds h) r d) (h_bs h) (h_rs h).
Definition set_rules (h : heap) (r : nat) (rs : ruleset) : heap := mkHeap (h_ds h) (h_bs h) (upd (h_rs h) r rs).

(** branch.py 104-145 [Branch.eval_state]: four loops, each may change a label; labels
    assigned before an exception stay *)
Definition eval_h (h : heap) (r : nat) (rules : ruleset) : heap * res unit :=
  let b := view h r in
  match eval_loop (all_ge (b_up b)) S_ (r_s rules) (b_up_state b) with
  | Err e => (h, Err e)
  | Ok us =>
      let h1 := set_us h r us in
      match eval_loop (all_ge (b_down b)) S_ (r_s rules) (b_down_state b) with
      | Err e => (h1, Err e)
      | Ok ds =>
          let h2 := set_ds h1 r ds in
          match eval_loop (all_le (b_up b)) F_ (r_f rules) us with
          | Err e => (h2, Err e)
          | Ok us' =>
              let h3 := set_us h2 r us' in
              match eval_loop (all_le (b_down b)) F_ (r_f rules) ds with
              | Err e => (h3, Err e)
              | Ok ds' => (set_ds h3 r ds', Ok tt)
              end
          end
      end
  end.

(** branch.py 198-221 [Branch.get_new_branch]: one dictionary is a changed copy, the other
    is the parent's own *)
Definition new_branch_h (h : heap) (r : nat) (rules : ruleset) (probs : prob_dict)
    (xd : string) (xd_st : Z) (up_flag : bool) : heap * res nat :=
  let o := hobj h r in
  match get_new_branch (view h r) rules probs xd xd_st up_flag with
  | Err e => (h, Err e)
  | Ok b =>
      if up_flag then
        let '(h1, u) := new_dict h (b_up b) in
        let '(h2, n) := new_obj h1 (mkO (o_down o) u (b_down_state b) (b_up_state b) (b_p b)) in (h2, Ok n)
      else
        let '(h1, d) := new_dict h (b_down b) in
        let '(h2, n) := new_obj h1 (mkO d (o_up o) (b_down_state b) (b_up_state b) (b_p b)) in (h2, Ok n)
  end.

(** brc.py 375-386 [init_branch] *)
Definition init_h (h : heap) (varis : dict variable) (rules : ruleset) : heap * res (list nat) :=
  match init_branch varis rules with
  | Ok [b] =>
      let '(h1, d) := new_dict h (b_down b) in
      let '(h2, u) := new_dict h1 (b_up b) in
      let '(h3, n) := new_obj h2 (mkO d u (b_down_state b) (b_up_state b) (b_p b)) in (h3, Ok [n])
  | Ok _ => (h, Err IndexError)
  | Err e => (h, Err e)
  end.

(** brc.py 409-436, the for loop of [decomp_depth_first]; the entries of [rest] are
    looked at when their turn comes, and kept as they are after a break *)
Fixpoint pass_h (h : heap) (rules : ruleset) (probs : prob_dict) (max_nb : option Z) (nb : nat)
    (todo acc : list (nat * ruleset)) : heap * res (list (nat * ruleset) * bool) :=
  match todo with
  | [] => (h, Ok (acc, true))
  | (r, cr) :: rest =>
      match eval_h h r rules with
      | (h1, Err e) => (h1, Err e)
      | (h1, Ok _) =>
          if keep_branch (view h1 r) cr then
            pass_h h1 rules probs max_nb nb rest (acc ++ [(r, mkRules [] [])])
          else
            match get_decomp_comp (view h1 r) cr probs with
            | Err e => (h1, Err e)
            | Ok None => (h1, Err TypeError)
            | Ok (Some (xd, xd_st)) =>
                match new_branch_h h1 r rules probs xd xd_st true with
                | (h2, Err e) => (h2, Err e)
                | (h2, Ok r1) =>
                    match get_compat_rules (view h2 r1) rules with
                    | Err e => (h2, Err e)
                    | Ok c1 =>
                        match new_branch_h h2 r rules probs xd xd_st false with
                        | (h3, Err e) => (h3, Err e)
                        | (h3, Ok r2) =>
                            match get_compat_rules (view h3 r2) rules with
                            | Err e => (h3, Err e)
                            | Ok c2 =>
                                let acc' := acc ++ [(r1, c1); (r2, c2)] in
                                if gt_bound (Z.of_nat (List.length acc' + nb)) max_nb then (h3, Ok (acc' ++ rest, false))
                                else pass_h h3 rules probs max_nb nb rest acc'
                            end
                        end
                    end
                end
            end
      end
  end.

(** [copy.deepcopy] of a list of branches, brc.py 438: new branches and new dictionaries;
    what was shared is shared.  Copies nobody refers to are garbage. *)
Definition pos (r : nat) (l : list nat) : nat := match find_idx (Nat.eqb r) l with Some i => i | None => 0%nat end.
Definition copy_h (h : heap) (refs : list nat) : heap * list nat :=
  let R := flat_map (fun r => [o_down (hobj h r); o_up (hobj h r)]) refs in
  let nd r := (List.length (h_ds h) + pos r R)%nat in
  (mkHeap (h_ds h ++ map (hdict h) R)
          (h_bs h ++ map (fun r => let o := hobj h r in mkO (nd (o_down o)) (nd (o_up o)) (o_ds o) (o_us o) (o_p o)) refs)
          (h_rs h),
   map (fun r => (List.length (h_bs h) + pos r refs)%nat) refs).

(** brc.py 399-442, the while loop *)
Fixpoint loop_h (fuel : nat) (h : heap) (rules : ruleset) (probs : prob_dict) (max_nb : option Z)
    (bcs : list (nat * ruleset)) : heap * res (list nat) :=
  match fuel with
  | O => (h, Err OutOfFuel)
  | S fuel' =>
      let sorted := sort_desc (fun y x => qc_ltb (o_p (hobj h (fst x))) (o_p (hobj h (fst y)))) bcs in
      match pass_h h rules probs max_nb (List.length sorted) sorted [] with
      | (h1, Err e) => (h1, Err e)
      | (h1, Ok (bcs', go)) =>
          let '(h2, refs) := copy_h h1 (map fst bcs') in
          if (go : bool) && negb (forallb (fun bc => no_rules (snd bc)) bcs')
          then loop_h fuel' h2 rules probs max_nb (combine refs (map snd bcs'))
          else (h2, Ok refs)
      end
  end.

(** brc.py 389-444 [decomp_depth_first] *)
Definition decomp_h (h : heap) (varis : dict variable) (rules : ruleset) (probs : prob_dict)
    (max_nb : option Z) (refs : list nat) : heap * res (list nat) :=
  match (match refs with [] => init_h h varis rules | _ => (h, Ok refs) end) with
  | (h1, Err e) => (h1, Err e)
  | (h1, Ok refs0) =>
      match mapM (fun r => get_compat_rules (view h1 r) rules) refs0 with
      | Err e => (h1, Err e)
      | Ok crules => loop_h (decomp_fuel (map (view h1) refs0)) h1 rules probs max_nb (combine refs0 crules)
      end
  end.

(** brc.py 447-494 [get_comp_st]: the dictionary of a branch itself.  The branches made
    in lines 474-484 hold the dictionaries of the given ones; they are represented by
    triples of the two references, labels and probability. *)
Definition gt_h (h : heap) (y x : nat) : bool := qc_ltb (o_p (hobj h x)) (o_p (hobj h y)).
Fixpoint ends_h (h : heap) (worst best : nat) (probs : prob_dict) (refs : list nat)
    (last : option bobj) (acc : list bobj) : res (list bobj) :=
  match refs with
  | [] => Ok acc
  | r :: rest =>
      let o := hobj h r in
      '(last1, acc1) <-
        (if st_eqb (o_us o) U_ then
           p_new <- approx_prob_by_comps (hdict h (o_up o)) (hdict h best) probs ;;
           _ <- mk_branch (hdict h (o_up o)) (hdict h best) U_ S_ p_new ;;
           Ok (Some (mkO (o_up o) best U_ S_ p_new), acc ++ [mkO (o_up o) best U_ S_ p_new])
         else Ok (last, acc)) ;;
      acc2 <-
        (if st_eqb (o_ds o) U_ then
           p_new <- approx_prob_by_comps (hdict h worst) (hdict h (o_down o)) probs ;;
           _ <- mk_branch (hdict h worst) (hdict h (o_down o)) F_ U_ p_new ;;
           match last1 with
           | None => Err UnboundLocalError
           | Some b => Ok (acc1 ++ [b])
           end
         else Ok acc1) ;;
      ends_h h worst best probs rest last1 acc2
  end.
Definition comp_st_h (h : heap) (refs : list nat) (surv_first : bool) (varis : dict variable)
    (probs : prob_dict) : heap * res (option nat) :=
  if surv_first then
    let sorted := sort_desc (gt_h h) refs in
    (h, Ok (match find (fun r => st_eqb (o_us (hobj h r)) U_) sorted with
            | Some r => Some (o_up (hobj h r))
            | None =>
                match find (fun r => st_eqb (o_ds (hobj h r)) U_) sorted with
                | Some r => Some (o_down (hobj h r))
                | None => None
                end
            end))
  else
    let '(h1, worst) := new_dict h (worst_of varis) in
    let '(h2, best) := new_dict h1 (best_of varis) in
    (h2, l <- ends_h h2 worst best probs refs None [] ;;
         Ok (match sort_desc (fun y x => qc_ltb (o_p x) (o_p y)) l with
             | [] => None
             | o :: _ => if st_eqb (o_us o) U_ then Some (o_up o)
                         else if st_eqb (o_ds o) U_ then Some (o_down o) else None
             end)).

(** a system function returns its three values and leaves its argument as the last one *)
Definition sysfun_h := dict Z -> Qc * st * option (dict Z) * dict Z.
(** the results table keeps the dictionary itself *)
Definition sysres_h := (Qc * nat * option (dict Z))%type.

(** brc.py 347-372 [run_sys_fn]: without minimum states the rule is made of what the
    function has left (lines 366, 368).  The dictionary of minimum states is not modified
    later. *)
Definition sys_fn_h (h : heap) (x : nat) (F : sysfun_h) (varis : dict variable) : heap * res (dict Z * st * sysres_h) :=
  let '(out, d) := F (hdict h x) in
  (set_dict h x d,
   '(rule, s, _) <- run_sys_fn d (fun _ => out) varis ;; Ok (rule, s, (fst (fst out), x, snd out))).

(** local variables of [run] *)
Record hstate : Type := mkHs { hs_brs : option (list nat); hs_rules : nat; hs_sys : list sysres_h; hs_mon : monitor; hs_ctrl : ctrl }.

(** brc.py 43-109, the loop body; [update_rule_set] changes the rule set in place *)
Definition body_h (h : heap) (varis : dict variable) (probs : prob_dict) (F : sysfun_h) (g : config)
    (s : hstate) : heap * res (hstate + hstate) :=
  match (if g_active g then decomp_h h varis (hrules h (hs_rules s)) probs (g_max_nb g) []
         else decomp_h h varis (hrules h (hs_rules s)) probs (g_max_nb g)
                (match hs_brs s with None => [] | Some b => b end)) with
  | (h1, Err e) => (h1, Err e)
  | (h1, Ok refs) =>
      match comp_st_h h1 refs (g_surv_first g) varis probs with
      | (h2, Err e) => (h2, Err e)
      | (h2, Ok x_star) =>
          let rs := hrules h2 (hs_rules s) in
          let stop f := (h2, Ok (inl (mkHs (Some refs) (hs_rules s) (hs_sys s) (set_flag (hs_mon s) f) (hs_ctrl s)))) in
          match x_star with
          | None => stop O_complete
          | Some x =>
              if ge_bound (len refs) (g_max_nb g) then stop O_max_nb
              else if qc_ltb (c_pr_bu (hs_ctrl s)) (c_pf_low (hs_ctrl s) * g_pf_bnd_wr g)%Qc then stop O_pf_bnd
              else if ge_bound (len (r_s rs ++ r_f rs)) (g_max_rules g) then stop O_max_rules
              else
                match sys_fn_h h2 x F varis with
                | (h3, Err e) => (h3, Err e)
                | (h3, Ok (rule, sst, sres)) =>
                    match update_rule_set rs rule sst with
                    | Err e => (h3, Err e)
                    | Ok rs' =>
                        let h4 := set_rules h3 (hs_rules s) rs' in
                        let no_sf := c_no_sf (hs_ctrl s) + 1 in
                        let '(mon, ctl) := update_monitor (push_no_sf (hs_mon s) no_sf) (map (view h4) refs) rs' in
                        let mon' := if c_no_sf ctl =? g_max_sf g then set_flag mon O_max_sf else mon in
                        (h4, Ok (inr (mkHs (Some refs) (hs_rules s) (hs_sys s ++ [sres]) mon' ctl)))
                    end
                end
          end
      end
  end.

(** brc.py 42-113, the loop *)
Fixpoint run_loop_h (fuel : nat) (h : heap) (varis : dict variable) (probs : prob_dict) (F : sysfun_h)
    (g : config) (s : hstate) : heap * res hstate :=
  match fuel with
  | O => (h, Err OutOfFuel)
  | S fuel' =>
      if c_no_sf (hs_ctrl s) <? g_max_sf g then
        match body_h h varis probs F g s with
        | (h1, Err e) => (h1, Err e)
        | (h1, Ok (inl s')) => (h1, Ok s')
        | (h1, Ok (inr s')) => run_loop_h fuel' h1 varis probs F g s'
        end
      else (h, Ok s)
  end.

(** brc.py 17-123 [run]; [rules] is a rule set of the caller or None *)
Definition run_h (h : heap) (varis : dict variable) (probs : prob_dict) (F : sysfun_h) (g : config)
    (rules : option nat) (brs : option (list nat)) : heap * res hstate :=
  let '(h0, rid) := match rules with Some r => (h, r) | None => new_rules h (mkRules [] []) end in
  let '(m0, c0) := init_monitor in
  match run_loop_h (S (Z.to_nat (g_max_sf g))) h0 varis probs F g (mkHs brs rid [] m0 c0) with
  | (h1, Err e) => (h1, Err e)
  | (h1, Ok s) =>
      if 0 <? g_max_sf g then
        match hs_brs s with
        | None => (h1, Err TypeError)
        | Some b => let '(m, c) := update_monitor (hs_mon s) (map (view h1) b) (hrules h1 (hs_rules s)) in
                    (h1, Ok (mkHs (Some b) (hs_rules s) (hs_sys s) m c))
        end
      else (h1, Ok s)
  end.
