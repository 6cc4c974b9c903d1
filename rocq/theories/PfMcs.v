(** Model of [run_MCS] of /repo/BNS_JT/demos/pf_map/batch.py. *)
From Coq Require Import ZArith List String Bool QArith Qcanon.
From Verif Require Import Py Num Vari Brc Trans Config PfMap Mcs.
Import ListNotations.
Open Scope string_scope.
Open Scope Z_scope.
Open Scope list_scope.

(** batch.py 558-580 and 621-623: what [main] saves in varis.pk, the variables of the roads and, in the order [done]
    in which the processes finish, one for each node that is not an origin *)
Definition pm_saved_varis (f : mapfile) (times : dict Qc) (done : list string) : dict variable :=
  fold_left (fun vs n => if mem_str n (pm_origins f) then vs else dset vs n (mk_variable n [VStr "f"; VStr "s"; VStr "u"] None))
    done (pm_varis times).

(** batch.py 361-395 [run_MCS] after a run of [main] on the same file.  The failure probabilities (383-384) are the
    distribution of the samples, [draw_indep (pm_probs pf)]; [draws] are samples, and [cov_t] is 0.01 in the file.  What
    is printed and written is the result.  [None]: the samples are used up before the simulation stops. *)
Definition pm_mcs (np_sqrt np_log : Qc -> Qc) (norm_cdf : Qc -> Qc -> Qc -> Qc) (gm_ln_sa : Qc -> Qc -> Qc) (gm_std_al : Qc -> Qc) (gm_std_ep : Qc -> Qc -> Qc)
    (nx_multi : graph -> list string -> string -> res (value * list string))
    (f : mapfile) (eq_name : string) (done : list string) (node : string) (cov_t : Qc) (draws : list (res (dict Z))) : res (option estimate) :=
  net <- read_model (pm_net f) ;;
  lens <- get_arcs_length np_sqrt (pm_arcs f) (pm_nodes f) ;;
  let varis := pm_saved_varis f (map (fun kl => (fst kl, (snd kl / qz 100)%Qc)) lens) done in
  let itc := map (fun k => (k, 1)) (keys (pm_arcs f)) in
  c <- get_time_and_path_multi_dest nx_multi itc (fst (fst net)) node (pm_origins f) varis ;;
  let sys_fun := as_sysfun (fun x => sf_min_path_multi nx_multi x (fst (fst net)) node (pm_origins f) varis (Some (t_times (pm_thres f) (fst (fst c))))) in
  ed <- cal_edge_dist np_sqrt np_log norm_cdf gm_ln_sa gm_std_al gm_std_ep f eq_name ;;
  run_MCS_indep_comps sys_fun cov_t draws.
