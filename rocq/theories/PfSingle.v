(** Model of [run_single] and [debug] of /repo/BNS_JT/demos/pf_map/batch.py. *)
From Coq Require Import ZArith List String Bool QArith Qcanon.
From Verif Require Import Py Num Vari Brc Cpm Model Trans Config PfMap.
Import ListNotations.
Open Scope string_scope.
Open Scope Z_scope.
Open Scope list_scope.

Section Single.
Variables (np_sqrt np_log : Qc -> Qc) (norm_cdf : Qc -> Qc -> Qc -> Qc) (gm_ln_sa : Qc -> Qc -> Qc) (gm_std_al : Qc -> Qc) (gm_std_ep : Qc -> Qc -> Qc).
Variable nx_multi : graph -> list string -> string -> res (value * list string).

(** batch.py 628-660 [run_single]: the preparation of [main] and [process_node] for one node.  The function drops the
    result; here it is returned. *)
Definition pm_single (f : mapfile) (eq_name : string) (max_sf : option Z) (max_nb : Z) (wr : Qc) (node : string) : res nres :=
  net <- read_model (pm_net f) ;;
  ed <- cal_edge_dist np_sqrt np_log norm_cdf gm_ln_sa gm_std_al gm_std_ep f eq_name ;;
  let pf := fst (fst ed) in
  lens <- get_arcs_length np_sqrt (pm_arcs f) (pm_nodes f) ;;
  let varis := pm_varis (map (fun kl => (fst kl, (snd kl / qz 100)%Qc)) lens) in
  cpms <- mapM (fun kv =>
    p <- dget pf (fst kv) ;;
    M <- mk_cpm [snd kv] 1 [[0]; [1]] [p; (1 - p)%Qc] ;;
    Ok (fst kv, M)) varis ;;
  let itc := map (fun kv => (fst kv, nvals (snd kv) - 1)) varis in
  process_node nx_multi (fst (fst net)) (pm_origins f) (pm_thres f) (pm_cfg f max_sf max_nb wr) itc (keys (pm_arcs f)) varis (pm_probs pf) cpms node.

(** batch.py 493-531 [debug]: the same for scenario s1 and node n1 with at most 100 branches *)
Definition pm_debug (f : mapfile) (max_sf : option Z) (wr : Qc) : res nres := pm_single f "s1" max_sf 100 wr "n1".
End Single.
