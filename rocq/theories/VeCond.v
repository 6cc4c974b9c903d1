(** Model of inference by conditioning, /repo/BNS_JT/operation.py: [get_variables] (514-539),
    [condition] (17-58), [variable_elim_cond] (456-511) and [cal_Msys_by_cond_VE] (699-751),
    for CPMs without samples. *)
From Coq Require Import ZArith List String Bool Arith QArith Qcanon.
From Verif Require Import Py Num Vari Cpm Net MsysProd.
Import ListNotations.
Open Scope string_scope.
Open Scope Z_scope.
Open Scope list_scope.

(** operation.py 526-535: every CPM in turn contributes those of the remaining names that it
    has.  [remain.remove(remain[i])] drops the entry at [i]: earlier entries are not in [names]. *)
Fixpoint gv_scan (l : list cpm) (remain : list string) : res (list variable) :=
  match l with
  | [] => Ok []
  | M :: l' =>
      let here := fun n => mem_str n (names (c_vars M)) in
      found <- mapM (get_variable M) (filter here remain) ;;
      rest <- gv_scan l' (filter (fun n => negb (here n)) remain) ;;
      Ok (found ++ rest)
  end.

(** operation.py 514-539 [get_variables]; the result is sorted by position in [ns], stably *)
Definition op_get_variables (l : list cpm) (ns : list string) : res (list variable) :=
  r <- gv_scan l ns ;;
  if (List.length r =? List.length ns)%nat
  then Ok (sort_desc (fun y x => (ord_inf ns (v_name y) <? ord_inf ns (v_name x))%nat) r)
  else Err AssertionError.

(** operation.py 17-58 [condition] on a list of CPMs (a single CPM is the list of it; of a
    dict the values are conditioned and the keys kept).  String states become positions
    before the CPMs are conditioned. *)
Definition op_condition (l : list cpm) (cnd_vars : varg) (cnd_states : list astate) : res (list cpm) :=
  vs <- (match cnd_vars with Names [] => Ok [] | Names ns => op_get_variables l ns | Vars vs => Ok vs end) ;;
  sts <- cond_states vs cnd_states ;;
  mapM (fun M => condition M (Vars vs) sts) l.

(** operation.py 481-502, one row of the product of the conditioning CPMs.  The state is the
    list [idv] of kept columns (found in the first pass, [None] while unbound; [del idv] when
    empty) and the result [M] so far ([None] while unbound).  [_cpm.no_child-len(idx)] can be
    negative when a conditioning variable is a child nowhere; 0 stands for it here.  [varis] may be names: a Variable equals its name and has the same hash
    (variable.py 301-314), so names and Variables act alike in [variable_elim]. *)
Definition vec_step (cpms : list cpm) (varis : list variable) (P : cpm) (cn : list string)
    (st : option (list nat) * option cpm) (cx : list Z) : res (option (list nat) * option cpm) :=
  P' <- condition P (Vars (c_vars P)) (map SI cx) ;;
  l' <- op_condition cpms (Vars (c_vars P)) (map SI cx) ;;
  E <- variable_elim l' varis ;;
  M <- product E P' ;;
  idx <- get_col_ind M cn ;;
  let idv := match fst st with
             | Some i => i
             | None => filter (fun i => negb (existsb (Nat.eqb i) idx)) (seq 0 (ncols M))
             end in
  match idv with
  | [] => Ok (None, snd st)
  | _ =>
      M2 <- mk_cpm (take_rows (c_vars M) idv) (c_nch M - List.length idx)
                   (map (fun row => cols row idv) (c_C M)) (c_p M) ;;
      M3 <- (match snd st with None => Ok M2 | Some M0 => merge M0 M2 end) ;;
      Ok (Some idv, Some M3)
  end.

(** operation.py 456-511 [variable_elim_cond].  The order of [list(set(...))] does not matter. *)
Definition variable_elim_cond (cpms : list cpm) (varis : list variable) (cond : list cpm) : res (option cpm) :=
  P <- product_list cond ;;
  st <- foldM (vec_step cpms varis P (nodup string_dec (flat_map (fun M => names (c_vars M)) cond))) (c_C P) (None, None) ;;
  Ok (snd st).

(** [del d[k]] *)
Definition ddel {A} (d : dict A) (k : string) : dict A := filter (fun kv => negb (String.eqb (fst kv) k)) d.

(** operation.py 731-732: one variable of [c_jnt_names] joins the system CPM *)
Definition join_sys (sys : string) (d : dict cpm) (x : string) : res (dict cpm) :=
  S <- dget d sys ;;
  X <- dget d x ;;
  P <- product S X ;;
  Ok (ddel (dset d sys P) x).

(** operation.py 726-741, one row of the conditioning CPM *)
Definition cal_step (inf : dict cpm) (ve_vars : list variable) (sys : string) (jnt elm cond : list string)
    (Mc : cpm) (row : list Z) : res cpm :=
  m1 <- condition Mc (Vars (c_vars Mc)) (map SI row) ;;
  match c_C m1 with
  | [] => Err IndexError
  | r1 :: _ =>
      VE <- mapM (fun kM => M <- condition (snd kM) (Vars (c_vars m1)) (map SI r1) ;; Ok (fst kM, M)) inf ;;
      VE' <- foldM (join_sys sys) jnt VE ;;
      comps <- variable_elim_list (map snd (filter (fun kM => negb (String.eqb (fst kM) sys)) VE')) ve_vars ;;
      S <- dget VE' sys ;;
      m <- prod_sys S comps ;;
      m' <- sum m (Names elm) true ;;
      m'' <- product m' m1 ;;
      sum m'' (Names cond) true
  end.

(** operation.py 699-751 [cal_Msys_by_cond_VE]; without rows [Msys] is unbound *)
Definition cal_msys (cpms : dict cpm) (varis : dict variable) (cond ve_order : list string) (sys : string) : res cpm :=
  inf <- get_inf_vars cpms [sys] (Some ve_order) ;;
  S <- dget cpms sys ;;
  let c := names (parents S) in
  let ve := filter (fun x => mem_str x ve_order && negb (mem_str x cond) && negb (mem_str x c)) inf in
  let jnt := filter (fun x => negb (mem_str x ve_order)) c in
  let elm := filter (fun x => negb (mem_str x jnt)) c in
  ve_vars <- mapM (dget varis) (filter (fun v => negb (String.eqb v sys)) ve) ;;
  ms <- mapM (fun v => M <- dget cpms v ;; Ok (v, M)) (ve ++ c ++ jnt) ;;
  let cpms_inf := dset (fold_left (fun d kM => dset d (fst kM) (snd kM)) ms []) sys S in
  cc <- mapM (dget cpms) cond ;;
  Mc <- product_list cc ;;
  match c_C Mc with
  | [] => Err UnboundLocalError
  | row :: rows =>
      M0 <- cal_step cpms_inf ve_vars sys jnt elm cond Mc row ;;
      foldM (fun acc r => m <- cal_step cpms_inf ve_vars sys jnt elm cond Mc r ;; merge acc m) rows M0
  end.
