(** Model of [run_MCS] of /repo/BNS_JT/demos/max_flow/batch.py. *)
From Coq Require Import ZArith List String Bool QArith Qcanon.
From Verif Require Import Py Num Vari Brc Flow MaxFlow Mcs.
Import ListNotations.
Open Scope string_scope.
Open Scope Z_scope.
Open Scope list_scope.

(** batch.py 141-146 [run_MCS] up to the line printed, after the input file is read (109-136 [init_prob]).  [cov_t]
    is 0.01 in the file; the threshold of the flow is that of the pair.  The distribution of one sample is
    [draw_indep (init_probs ls)], and [draws] are samples; what is printed is the result. *)
Definition mf_mcs (nx_flow : bool -> cgraph -> string -> string -> res (Qc * (string -> string -> Qc))) (ls : dict link)
    (o d : string) (target : Qc) (bi : bool) (cov_t : Qc) (draws : list (res (dict Z))) : res (option estimate) :=
  run_MCS_indep_comps (mf_sysfun nx_flow o d (init_edges ls) (init_varis ls) target bi) cov_t draws.

(** batch.py 139-151 [run_MCS] as a whole: after the line is printed, line 148 opens a file under [output_path], a
    name that is neither assigned in the function nor defined or imported in the module (the attribute is
    [cfg.output_path]).  [None]: the samples are used up before the simulation stops. *)
Definition mf_run_mcs (nx_flow : bool -> cgraph -> string -> string -> res (Qc * (string -> string -> Qc))) (ls : dict link)
    (o d : string) (target : Qc) (bi : bool) (cov_t : Qc) (draws : list (res (dict Z))) : res (option estimate) :=
  r <- mf_mcs nx_flow ls o d target bi cov_t draws ;;
  match r with
  | None => Ok None
  | Some _ => Err NameError
  end.
