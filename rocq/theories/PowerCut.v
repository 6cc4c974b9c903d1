(** Model of [main] of /repo/BNS_JT/demos/power_house/batch.py. *)
From Coq Require Import ZArith List String Bool Arith QArith Qcanon.
From Verif Require Import Py Num Vari Cpm SysVal Bnb VeCond Power.
Import ListNotations.
Open Scope string_scope.
Open Scope Z_scope.
Open Scope list_scope.

(** batch.py 313-321: the order of elimination [VE_ord] *)
Definition ve_ord (rep : list string) (lins : dict (list (list string))) : list string :=
  "haz" :: flat_map (fun s => ["x" +s s; "n" +s s; "c" +s s]) rep ++
  flat_map (fun hp => if (List.length (snd hp) <? 2)%nat then [fst hp]
                      else map (fun i => fst hp +s num_str i) (seq 0 (List.length (snd hp))) ++ [fst hp]) lins.

(** batch.py 326-341, the two loops of [main].  [cal] is the function that is called in 329 and [mean] the
    mean that is read in 338-339. *)
Definition inference (cal : dict cpm -> dict variable -> list string -> list string -> string -> res cpm) (mean : cpm -> string -> res Qc)
    (st : net) (ord : list string) (h_list : list string) : res (dict cpm * dict Qc) :=
  ms <- mapM (fun h => M <- cal (fst st) (snd st) ["haz"] ord h ;; Ok (h, M)) h_list ;;
  let Mhs := fold_left (fun d hM => dset d (fst hM) (snd hM)) ms [] in
  av <- mapM (fun h => M <- dget Mhs h ;; x <- mean M h ;; Ok (h, x)) h_list ;;
  Ok (Mhs, fold_left (fun d hx => dset d (fst hx) (snd hx)) av []).

(** batch.py 255-355 [main] from the contents of the file (295) and without a plot.  The module cpm has neither
    [cal_Msys_by_cond_VE] (329) nor [get_means] (338): both are AttributeErrors when they are reached. *)
Definition power_main (haz : dict Qc) (pfs : dict (list Qc)) (rep : list string) (paths : dict (list (list string))) (houses : dict (list string))
    (h_list : list string) : res (dict cpm * dict Qc) :=
  let lins := house_lins houses paths in
  st <- quant_cpms haz pfs rep lins ;;
  inference (fun _ _ _ _ _ => Err AttributeError) (fun _ _ => Err AttributeError) st (ve_ord rep lins) h_list.

(** the same with the function of the module operation (operation.py 699-751), which is the one meant, and the
    method [get_means] of CPMs (cpm.py 273-286) *)
Definition power_main_op (haz : dict Qc) (pfs : dict (list Qc)) (rep : list string) (paths : dict (list (list string))) (houses : dict (list string))
    (h_list : list string) : res (dict cpm * dict Qc) :=
  let lins := house_lins houses paths in
  st <- quant_cpms haz pfs rep lins ;;
  inference cal_msys (fun M h => l <- get_means M [h] ;; match l with x :: _ => Ok x | [] => Err IndexError end) st (ve_ord rep lins) h_list.
