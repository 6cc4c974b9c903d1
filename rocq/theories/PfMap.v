(** Model of the failure map demo: demos/pf_map/batch.py and trans.py 303-324. *)
From Coq Require Import ZArith List String Bool QArith Qcanon.
From Verif Require Import Py Num Vari Brc Cpm Model Trans Config.
Import ListNotations.
Open Scope string_scope.
Open Scope Z_scope.
Open Scope list_scope.

Definition point : Type := (Qc * Qc)%type.

(** batch.py 19-40 and 337-358, config.py 88-106: what is read.  A road has its ends and a type of
    fragility; a node its two coordinates (an entry with other fields is a ValueError where
    its values are unpacked, not modelled); a type of fragility the medians of the damage states
    and the dispersion; a scenario the magnitude and the epicentre.  The 'weight' of a road is
    never used: the weights of the graph are replaced by travel times. *)
Record road : Type := mkRoad { r_from : string; r_to : string; r_frag : string; r_weight : Qc }.
Record fragility : Type := mkFrag { sa_g : list Qc; sa_g_dispersion : Qc }.
Record quake : Type := mkQuake { mw : Qc; epicentre : point }.
Record mapfile : Type := mkMap {
  pm_nodes : dict point;
  pm_roads : dict road;
  pm_type : option string;
  pm_origins : list string;
  pm_eq : dict quake;
  pm_frag : dict fragility;
  pm_thres : Qc }.
(** the file as [config.read_model_from_json] sees it *)
Definition pm_net (f : mapfile) : netfile :=
  mkNetfile (keys (pm_nodes f)) (map (fun kr => (fst kr, mkEntry (r_from (snd kr)) (r_to (snd kr)) (r_weight (snd kr)))) (pm_roads f)) [] (pm_type f).

Definition sqr (x : Qc) : Qc := (x * x)%Qc.
Definition qabs (x : Qc) : Qc := if qc_ltb x 0%Qc then (- x)%Qc else x.

(** batch.py 184-197: the table of epistemic deviations, row [i] for magnitude [i] and column
    [j] for distance [j], and the points handed to [bisplrep], which flattens its three
    arguments.  [np.meshgrid] gives eleven rows of nine, the table has nine rows of eleven. *)
Definition ep_mw : list Q := [5; 54#10; 58#10; 62#10; 66#10; 7; 74#10; 78#10; 82#10]%Q.
Definition ep_rrup : list Q := [1; 2; 3; 5; 7; 10; 20; 30; 40; 50; 70]%Q.
Definition ep_val : list (list Q) := map (map (fun z => (z # 100)%Q))
  [[24; 25; 25; 21; 18; 13; 6; 10; 14; 17; 23];
   [22; 23; 23; 22; 19; 16; 10; 11; 14; 18; 23];
   [19; 20; 21; 20; 19; 17; 14; 15; 18; 21; 27];
   [15; 15; 16; 16; 17; 16; 14; 15; 18; 21; 27];
   [12; 13; 13; 13; 14; 14; 13; 15; 18; 21; 27];
   [13; 13; 13; 13; 14; 14; 14; 15; 17; 20; 27];
   [14; 13; 13; 14; 15; 16; 16; 16; 18; 21; 27];
   [15; 15; 14; 15; 15; 17; 18; 18; 20; 22; 28];
   [17; 17; 16; 16; 17; 18; 20; 21; 22; 23; 29]].
Definition ep_knots : list (Q * Q * Q) :=
  combine (flat_map (fun r => map (fun m => (m, r)) ep_mw) ep_rrup) (List.concat ep_val).

Section Functions.
(** [np.sqrt], [np.log], [norm.cdf], and the three results of [gmpe_cam03] (163-227: logarithm
    of the spectral acceleration, aleatory and epistemic deviation) as functions of magnitude
    and distance *)
Variable np_sqrt : Qc -> Qc.
Variable np_log : Qc -> Qc.
Variable norm_cdf : Qc -> Qc -> Qc -> Qc.
Variable gm_ln_sa : Qc -> Qc -> Qc.
Variable gm_std_al : Qc -> Qc.
Variable gm_std_ep : Qc -> Qc -> Qc.

(** batch.py 130-159 [shortest_distance]; the two denominators are equal *)
Definition shortest_distance (p1 p2 p0 : point) : res Qc :=
  let '(x1, y1) := p1 in
  let '(x2, y2) := p2 in
  let '(x0, y0) := p0 in
  let den := (sqr (x2 - x1) + sqr (y2 - y1))%Qc in
  if qc_eqb den 0%Qc then Err ZeroDivisionError
  else
    let dot1 := (((x0 - x1) * (x2 - x1) + (y0 - y1) * (y2 - y1)) / den)%Qc in
    let dot2 := (((x0 - x2) * (x1 - x2) + (y0 - y2) * (y1 - y2)) / (sqr (x1 - x2) + sqr (y1 - y2)))%Qc in
    if qc_ltb dot1 0%Qc then Ok (np_sqrt (sqr (x0 - x1) + sqr (y0 - y1))%Qc)
    else if qc_ltb dot2 0%Qc then Ok (np_sqrt (sqr (x0 - x2) + sqr (y0 - y2))%Qc)
    else Ok (qabs ((y2 - y1) * x0 - (x2 - x1) * y0 + x2 * y1 - y2 * x1)%Qc / np_sqrt (sqr (y2 - y1) + sqr (x2 - x1))%Qc)%Qc.

(** batch.py 49-52, 91-94 *)
Definition rrup (f : mapfile) (epi : point) : res (dict Qc) :=
  mapM (fun kr =>
    a <- dget (pm_nodes f) (r_from (snd kr)) ;;
    b <- dget (pm_nodes f) (r_to (snd kr)) ;;
    d <- shortest_distance a b epi ;;
    Ok (fst kr, d)) (pm_roads f).

(** batch.py 85-127 [cal_edge_dist_output] without its last result, and 43-82 [cal_edge_dist],
    which stores the same probabilities and means in the roads.  [gmpe_cam03] asserts the range
    of the magnitude (177).  Failure probabilities, means and covariances; the matrix by rows. *)
Definition mw_ok (m : Qc) : bool := qc_leb (qz 6) m && qc_leb m (Q2Qc (17 # 2)).
Definition cal_edge_dist (f : mapfile) (eq_name : string) : res (dict Qc * dict Qc * list (list Qc)) :=
  eq <- dget (pm_eq f) eq_name ;;
  rr <- rrup f (epicentre eq) ;;
  if mw_ok (mw eq) then
    es <- mapM (fun kr =>
      fr <- dget (pm_frag f) (r_frag (snd kr)) ;;
      mean <- py_index (sa_g fr) 2 ;;
      r <- dget rr (fst kr) ;;
      let var := (sqr (gm_std_al (mw eq)) + sqr (gm_std_ep (mw eq) r) + sqr (sa_g_dispersion fr))%Qc in
      let m := (np_log mean - gm_ln_sa (mw eq) r)%Qc in
      Ok (fst kr, (norm_cdf 0%Qc m (np_sqrt var), m, var))) (pm_roads f) ;;
    Ok (map (fun e => (fst e, fst (fst (snd e)))) es,
        map (fun e => (fst e, snd (fst (snd e)))) es,
        map (fun e => map (fun e2 => if String.eqb (fst e) (fst e2) then snd (snd e) else sqr (gm_std_al (mw eq))) es) es)
  else Err AssertionError.

(** trans.py 303-324 [get_arcs_length] *)
Definition get_arcs_length (arcs : dict (string * string)) (coords : dict point) : res (dict Qc) :=
  mapM (fun ka =>
    a <- dget coords (fst (snd ka)) ;;
    b <- dget coords (snd (snd ka)) ;;
    Ok (fst ka, np_sqrt (sqr (fst a - fst b) + sqr (snd a - snd b))%Qc)) arcs.

(** [nx.multi_source_dijkstra], as in Trans.v *)
Variable nx_multi : graph -> list string -> string -> res (value * list string).

(** batch.py 230-336 [mcs_unknown], called with [cov_t = 0.01]: [b[4] for b in brs_u] indexes
    objects of class Branch, and a list cannot be divided by the sum of an empty list *)
Definition mcs_unknown {A} (brs_u : list branch) : res A :=
  match brs_u with
  | _ :: _ => Err TypeError
  | [] => Err TypeError
  end.

(** [thres * d_time_itc] *)
Definition t_times (q : Qc) (t : value) : value := match t with VNum x => VNum (q * x)%Qc | _ => t end.

(** what [process_node] hands back, apart from the rules and the results of [mcs_unknown] *)
Record nres : Type := mkNres { n_vari : option variable; n_cpms : dict cpm; n_pf : Qc; n_nsamp : Z; n_mon : option monitor }.
Definition last_item (l : list Qc) : res Qc := match rev l with x :: _ => Ok x | [] => Err IndexError end.

(** batch.py 398-491 [process_node].  For an origin the CPMs are None, here empty. *)
Definition process_node (G : graph) (dests : list string) (thres : Qc) (g : config) (itc : dict Z) (arcs : list string)
    (varis : dict variable) (probs : prob_dict) (cpms : dict cpm) (node : string) : res nres :=
  if mem_str node dests then Ok (mkNres None [] 0%Qc 0 None)
  else
    c <- get_time_and_path_multi_dest nx_multi itc G node dests varis ;;
    let sys_fun := as_sysfun (fun x => sf_min_path_multi nx_multi x G node dests varis (Some (t_times thres (fst (fst c))))) in
    sub <- mapM (fun k => v <- dget varis k ;; Ok (k, v)) arcs ;;
    s <- run sub probs sys_fun g None None ;;
    match s_brs s with
    | None => Err TypeError
    | Some brs =>
        cv <- get_csys brs varis st_br_to_cs ;;
        let vari_node := mk_variable node [VStr "f"; VStr "s"; VStr "u"] None in
        vs <- mapM (dget (snd cv)) arcs ;;
        M <- mk_cpm (vari_node :: vs) 1 (fst cv) (map (fun _ => 1%Qc) (fst cv)) ;;
        pf_u <- last_item (m_pf_up (s_mon s)) ;;
        pf_l <- last_item (m_pf_low (s_mon s)) ;;
        match m_out_flag (s_mon s) with
        | Some O_max_sf | Some O_max_nb =>
            mcs_unknown (filter (fun b => st_eqb (b_up_state b) U_ || st_eqb (b_down_state b) U_ || negb (st_eqb (b_up_state b) (b_down_state b))) brs)
        | _ => Ok (mkNres (Some vari_node) (dset cpms node M) pf_u 0 (Some (s_mon s)))
        end
    end.

(** batch.py 536-626 [main]: the lines of result.txt (node, lower and upper bound, number of
    samples, coefficient of variation), and the saved CPMs.  [done] is the order in which the
    processes finish.  [max_sf] None is MAX_SYS_FUN null, that is infinity: it stands for one
    more than the number of vectors of states, more calls than a search makes (C20). *)
Definition line : Type := (string * (Qc * Qc * Z * Qc))%type.
Definition pm_arcs (f : mapfile) : dict (string * string) := map (fun kr => (fst kr, (r_from (snd kr), r_to (snd kr)))) (pm_roads f).
Definition pm_varis (times : dict Qc) : dict variable := map (fun kt => (fst kt, mk_variable (fst kt) [VInf; VNum (snd kt)] None)) times.
Definition pm_probs (pf : dict Qc) : prob_dict := map (fun kp => (fst kp, PDict [(0, snd kp); (1, (1 - snd kp)%Qc)])) pf.
Definition pm_cfg (f : mapfile) (max_sf : option Z) (max_nb : Z) (wr : Qc) : config :=
  mkCfg (match max_sf with Some m => m | None => 2 ^ Z.of_nat (List.length (pm_roads f)) + 1 end) (Some max_nb) wr None true true.
Definition pm_main (f : mapfile) (eq_name : string) (max_sf : option Z) (max_nb : Z) (wr : Qc) (done : list string)
  : res (list line * dict (dict cpm)) :=
  net <- read_model (pm_net f) ;;
  ed <- cal_edge_dist f eq_name ;;
  let pf := fst (fst ed) in
  lens <- get_arcs_length (pm_arcs f) (pm_nodes f) ;;
  let varis := pm_varis (map (fun kl => (fst kl, (snd kl / qz 100)%Qc)) lens) in
  cpms <- mapM (fun kv =>
    p <- dget pf (fst kv) ;;
    M <- mk_cpm [snd kv] 1 [[0]; [1]] [p; (1 - p)%Qc] ;;
    Ok (fst kv, M)) varis ;;
  let itc := map (fun kv => (fst kv, nvals (snd kv) - 1)) varis in
  rs <- mapM (fun n =>
    r <- process_node (fst (fst net)) (pm_origins f) (pm_thres f) (pm_cfg f max_sf max_nb wr) itc (keys (pm_arcs f)) varis (pm_probs pf) cpms n ;;
    Ok (n, r)) done ;;
  let has := filter (fun nr => match n_vari (snd nr) with Some _ => true | None => false end) rs in
  bounds <- mapM (fun nr : string * nres =>
    match n_mon (snd nr) with
    | Some m => l <- last_item (m_pf_low m) ;; u <- last_item (m_pf_up m) ;; Ok (fst nr, (l, u, n_nsamp (snd nr), 0%Qc))
    | None => Err TypeError
    end) has ;;
  lines <- mapM (fun n => b <- dget bounds n ;; Ok (n, b))
    (filter (fun n => negb (String.eqb n "epi") && negb (mem_str n (pm_origins f))) (keys (pm_nodes f))) ;;
  Ok (lines, map (fun nr => (fst nr, n_cpms (snd nr))) has).
End Functions.
