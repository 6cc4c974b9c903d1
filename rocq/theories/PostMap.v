(** Model of the two evaluations that follow the failure map: demos/pf_map/post.py 25-262. *)
From Coq Require Import ZArith List String Bool Arith QArith Qcanon.
From Verif Require Import Py Num Vari Brc Cpm MsysProd Trans Config PfMap.
Import ListNotations.
Open Scope string_scope.
Open Scope Z_scope.
Open Scope list_scope.

(** post.py 31-32, 183-184: cpms_{node}.pk, as stored by the map *)
Definition load_cpms (saved : dict (dict cpm)) (node : string) : res (dict cpm) :=
  match dfind saved node with Some d => Ok d | None => Err FileNotFoundError end.

(** cpm.py 94-107: [cpm.p = value] *)
Definition set_p (M : cpm) (p : list Qc) : res cpm :=
  _ <- check_p (c_C M) p ;; Ok (mkCpm (c_vars M) (c_nch M) (c_C M) p).

(** post.py 59-64: [np.hstack] and [np.vstack] with the covariances to the arcs taken before *)
Definition mat (COV : list (list Qc)) (i j : nat) : Qc := nth j (nth i COV []) 0%Qc.
Definition grow (COV : list (list Qc)) (cov : list (list Qc)) (idx : list nat) (j2 : nat) : list (list Qc) :=
  let cov1 := map (fun i => mat COV i j2) idx in
  map (fun rx => fst rx ++ [snd rx]) (combine cov cov1) ++ [cov1 ++ [mat COV j2 j2]].

(** post.py 45-66 for one row: the mean and the covariance matrix handed to [cdf].  An arc that is no
    variable of the matrix has index None; the truth value of the array [c[None] != 2] is a
    ValueError (rows have more than one column).  [COV] has a row and a column for each arc, both
    being made from the same file. *)
Definition row_step (vars : list variable) (MEAN : dict Qc) (COV : list (list Qc)) (row : list Z)
    (acc : list Qc * list (list Qc) * list nat) (jk : nat * string) : res (list Qc * list (list Qc) * list nat) :=
  let '(mean, cov, idx) := acc in
  match find_idx (fun x => String.eqb (v_name x) (snd jk)) vars with
  | None => Err ValueError
  | Some i =>
      let c := at_ row i in
      if c =? 2 then Ok acc
      else
        mean' <- (if c =? 1 then m <- dget MEAN (snd jk) ;; Ok (mean ++ [(- m)%Qc])
                  else if c =? 0 then m <- dget MEAN (snd jk) ;; Ok (mean ++ [m])
                  else Ok mean) ;;
        Ok (mean', grow COV cov idx (fst jk), idx ++ [fst jk])
  end.
Definition row_args (vars : list variable) (MEAN : dict Qc) (COV : list (list Qc)) (arcs : list string) (row : list Z)
  : res (list Qc * list (list Qc)) :=
  a <- foldM (row_step vars MEAN COV row) (combine (seq 0 (List.length arcs)) arcs) ([], [], []) ;;
  Ok (fst a).

Section Post.
(** as in PfMap.v *)
Variable np_sqrt : Qc -> Qc.
Variable np_log : Qc -> Qc.
Variable norm_cdf : Qc -> Qc -> Qc -> Qc.
Variable gm_ln_sa : Qc -> Qc -> Qc.
Variable gm_std_al : Qc -> Qc.
Variable gm_std_ep : Qc -> Qc -> Qc.
(** [multivariate_normal.cdf(0, mean, cov, allow_singular=True)] *)
Variable mvn_cdf : list Qc -> list (list Qc) -> res Qc.
(** whether the module cpm has functions [get_prob] and [prod_Msys_and_Mcomps].  In /repo it has
    not: the first is a method of [Cpm], the second is in operation.py; the attribute is looked up
    before the arguments are evaluated.  Where they are found they are taken to be these two. *)
Variable has_fns : bool.

(** post.py 77-81, 207-209 *)
Definition bounds_of (M : cpm) (node : string) : res (Qc * Qc) :=
  pf <- get_prob M (Names [node]) [SI 0] true ;;
  bnd <- get_prob M (Names [node]) [SI 2] true ;;
  Ok (pf, bnd).

(** post.py 25-132 [cal_prob_dep] for a matrix without samples (82-125 are not modelled: the map
    stores no samples, C81).  A sum of 0 gives nan in Python, an error here. *)
Definition cal_prob_dep (f : mapfile) (eq_name : string) (arcs : list string) (saved : dict (dict cpm)) (node : string) : res (Qc * Qc) :=
  ed <- cal_edge_dist np_sqrt np_log norm_cdf gm_ln_sa gm_std_al gm_std_ep f eq_name ;;
  let '(pf, MEAN, COV) := ed in
  cpms <- load_cpms saved node ;;
  M <- dget cpms node ;;
  p_node <- mapM (fun row => a <- row_args (c_vars M) MEAN COV arcs row ;; mvn_cdf (fst a) (snd a)) (c_C M) ;;
  if qc_eqb (qsum p_node) 0%Qc then Err ZeroDivisionError
  else
    M' <- set_p M (map (fun p => (p / qsum p_node)%Qc) p_node) ;;
    if has_fns then bounds_of M' node else Err AttributeError.

(** post.py 178-216 [update_pf1] for a matrix without samples (189-203 are not modelled) *)
Definition update_pf1 (arcs : list string) (new_probs : dict (Qc * Qc)) (saved : dict (dict cpm)) (node : string) : res (Qc * Qc) :=
  cpms0 <- load_cpms saved node ;;
  cpms <- foldM (fun d k =>
    M <- dget d k ;;
    q <- dget new_probs k ;;
    M' <- set_p M [fst q; snd q] ;;
    Ok (dset d k M')) arcs cpms0 ;;
  M <- dget cpms node ;;
  if has_fns then
    comps <- mapM (dget cpms) arcs ;;
    R <- prod_sys M comps ;;
    bounds_of R node
  else Err AttributeError.

(** post.py 142-157, 222-243: the nodes that are evaluated.  The processes may end in another
    order; when several raise, any of the exceptions may be the one that is seen. *)
Definition post_nodes (f : mapfile) : list string :=
  filter (fun n => negb (String.eqb n "epi") && negb (mem_str n (pm_origins f))) (keys (pm_nodes f)).

(** post.py 136-176 [eval_pfs_dep] and 218-262 [update_pfs], with batch.py 337-358: node, [pf], [pf_bnd]; the coefficient
    of variation is 0, and the times are left out.  varis.pk, stored by the map as well, is only
    used for samples. *)
Definition eval_pfs_dep (f : mapfile) (eq_name : string) (saved : dict (dict cpm)) : res (list (string * (Qc * Qc))) :=
  _ <- read_model (pm_net f) ;;
  _ <- cal_edge_dist np_sqrt np_log norm_cdf gm_ln_sa gm_std_al gm_std_ep f eq_name ;;
  mapM (fun n => r <- cal_prob_dep f eq_name (keys (pm_arcs f)) saved n ;; Ok (n, r)) (post_nodes f).
Definition update_pfs (f : mapfile) (eq_name : string) (saved : dict (dict cpm)) : res (list (string * (Qc * Qc))) :=
  _ <- read_model (pm_net f) ;;
  ed <- cal_edge_dist np_sqrt np_log norm_cdf gm_ln_sa gm_std_al gm_std_ep f eq_name ;;
  let new_probs := map (fun kp => (fst kp, (snd kp, (1 - snd kp)%Qc))) (fst (fst ed)) in
  mapM (fun n => r <- update_pf1 (keys (pm_arcs f)) new_probs saved n ;; Ok (n, r)) (post_nodes f).
End Post.
