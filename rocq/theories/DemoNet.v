(** Model of three demos that measure connection in a network from end to end:
    demos/rbd/batch.py, demos/routine/batch.py, demos/n3e3/batch.py. *)
From Coq Require Import ZArith List String Bool QArith Qcanon.
From Verif Require Import Py Num Vari Brc Cpm MsysProd Model Trans Config.
Import ListNotations.
Open Scope string_scope.
Open Scope Z_scope.
Open Scope list_scope.

(** [list.remove] of Python, rbd/batch.py 89 and 128: the first occurrence; ValueError if there is none *)
Fixpoint py_remove (x : string) (l : list string) : res (list string) :=
  match l with
  | [] => Err ValueError
  | y :: l' => if String.eqb x y then Ok l' else r <- py_remove x l' ;; Ok (y :: r)
  end.

(** the variable of a component, rbd/batch.py 95, routine/batch.py 95, n3e3/batch.py 43: 'f' is 0, 's' is 1 *)
Definition two_state (k : string) : variable := mk_variable k [VStr "f"; VStr "s"] None.

(** rbd/batch.py 134-135: total probability of the rows that start with the code 1, and of the rows [1, 1].
    The CPM has two columns, so that the comparison with [1, 1] is made row by row. *)
Definition first_one (M : cpm) : Qc :=
  qsum (map snd (filter (fun rp => match fst rp with c :: _ => c =? 1 | [] => false end) (combine (c_C M) (c_p M)))).
Definition both_one (M : cpm) : Qc :=
  qsum (map snd (filter (fun rp => match fst rp with [c; c'] => (c =? 1) && (c' =? 1) | _ => false end) (combine (c_C M) (c_p M)))).

(** what rbd/batch.py 80-137 computes: branches, the CPM after elimination and the printed ratio *)
Record rbd_out : Type := mkRbd { rb_brs : list branch; rb_M : cpm; rb_ratio : option Qc }.

(** what routine/batch.py 82-124 computes: branches, monitor, the product CPM and the two printed probabilities *)
Record rou_out : Type := mkRou { ro_brs : list branch; ro_mon : monitor; ro_M : cpm; ro_pf : Qc; ro_ps : Qc }.

Section Functions.
(** [nx.shortest_path] without and with weights, [nx.shortest_path_length] *)
Variable nx_path : graph -> string -> string -> option (list string).
Variable nx_wpath : graph -> string -> string -> res (list string).
Variable nx_wlen : graph -> string -> string -> res value.

(** demos/rbd/batch.py 80-137 [main].  [f] is the file that [Config] reads, [o] and [d] are 'source' and
    'sink', [kept] is 'x1', [mb] is MAX_BRANCHES.  The search uses probabilities 1/2 (101), the CPMs 1/10
    and 9/10 (99).  The system variable has two values (107), although unknown branches have the code 2.
    A division of floats of numpy by zero gives nan: [None]. *)
Definition rbd_main (f : netfile) (o d kept : string) (mb : Z) : res rbd_out :=
  net <- read_model f ;;
  let G := fst (fst net) in
  nodes <- foldM (fun l x => py_remove x l) [o; d] (component_list f) ;;
  let varis := map (fun k => (k, two_state k)) nodes in
  cpms <- mapM (fun k => M <- mk_cpm [two_state k] 1 [[0]; [1]] [Q2Qc (1 # 10); Q2Qc (9 # 10)] ;; Ok (k, M)) nodes ;;
  let probs : prob_dict := map (fun k => (k, PList [Q2Qc (1 # 2); Q2Qc (1 # 2)])) nodes in
  let sys_fun := as_sysfun (fun x => sf_min_path nx_path nx_wpath nx_wlen x G o d varis None) in
  s <- run varis probs sys_fun (mkCfg mb (Some mb) 0%Qc None true true) None None ;;
  match s_brs s with
  | None => Err TypeError
  | Some brs =>
      cv <- get_csys brs varis st_br_to_cs ;;
      let varis' := dset (snd cv) "sys" (mk_variable "sys" [VStr "f"; VStr "s"] None) in
      vs <- mapM (dget varis') ("sys" :: nodes) ;;
      Ms <- mk_cpm vs 1 (fst cv) (map (fun _ => 1%Qc) (fst cv)) ;;
      M <- mapM (dget (dset cpms "sys" Ms)) (nodes ++ ["sys"]) ;;
      el <- py_remove kept nodes ;;
      elv <- mapM (dget varis') el ;;
      M_VE <- variable_elim M elv ;;
      Ok (mkRbd brs M_VE (qdiv (both_one M_VE) (first_one M_VE)))
  end.

(** demos/routine/batch.py 82-124 [main].  [pr] are the probabilities of the states 0 and 1 of the edges
    (90), [key] is 'od1', [max_sf] and [max_nb] are 1000 and 100 (106).  The plot of the monitor (108) is
    left out. *)
Definition routine_main (f : netfile) (key : string) (pr : dict (Qc * Qc)) (max_sf max_nb : Z) : res rou_out :=
  net <- read_model f ;;
  let G := fst (fst net) in
  let edges := keys (snd (fst net)) in
  od <- dget (snd net) key ;;
  cpms <- mapM (fun k => p <- dget pr k ;; M <- mk_cpm [two_state k] 1 [[0]; [1]] [fst p; snd p] ;; Ok (k, M)) edges ;;
  let varis := map (fun k => (k, two_state k)) edges in
  let probs : prob_dict := map (fun kp => (fst kp, PDict [(0, fst (snd kp)); (1, snd (snd kp))])) pr in
  let sys_fun := as_sysfun (fun x => sf_min_path nx_path nx_wpath nx_wlen x G (fst od) (snd od) varis None) in
  s <- run varis probs sys_fun (mkCfg max_sf (Some max_nb) 0%Qc None true true) None None ;;
  match s_brs s with
  | None => Err TypeError
  | Some brs =>
      cv <- get_csys brs varis st_br_to_cs ;;
      let varis' := dset (snd cv) "sys" (mk_variable "sys" [VStr "f"; VStr "s"; VStr "u"] None) in
      vs <- mapM (dget varis') ("sys" :: edges) ;;
      Ms <- mk_cpm vs 1 (fst cv) (map (fun _ => 1%Qc) (fst cv)) ;;
      Mc <- mapM (dget (dset cpms "sys" Ms)) edges ;;
      Mn <- prod_sys Ms Mc ;;
      pf <- get_prob Mn (Names ["sys"]) [SI 0] true ;;
      ps <- get_prob Mn (Names ["sys"]) [SI 1] true ;;
      Ok (mkRou brs (s_mon s) Mn pf ps)
  end.

(** demos/n3e3/batch.py 16-56 [main]: the matrix that is printed.  [pr] as above (31), [o] and [d] are 'n1'
    and 'n3', [max_sf] and [max_nb] come from the file config.json.  The system function is given no
    variables (50).  The picture of the graph (27-29) is left out. *)
Definition n3e3_main (f : netfile) (o d : string) (pr : dict (Qc * Qc)) (max_sf max_nb : Z) : res (list (list Z)) :=
  net <- read_model f ;;
  let G := fst (fst net) in
  let edges := keys (snd (fst net)) in
  let varis := map (fun k => (k, two_state k)) edges in
  let probs : prob_dict := map (fun kp => (fst kp, PDict [(0, fst (snd kp)); (1, snd (snd kp))])) pr in
  let sys_fun := as_sysfun (fun x => sf_min_path nx_path nx_wpath nx_wlen x G o d [] None) in
  s <- run varis probs sys_fun (mkCfg max_sf (Some max_nb) 0%Qc None true true) None None ;;
  match s_brs s with
  | None => Err TypeError
  | Some brs => cv <- get_csys brs varis st_br_to_cs ;; Ok (fst cv)
  end.
End Functions.
