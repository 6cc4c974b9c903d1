(** Model of demos/SF/batch.py: connection between two nodes of a network whose edges fail with
    probability 1/2. *)
From Coq Require Import ZArith List String Bool QArith Qcanon.
From Verif Require Import Py Num Vari Brc Cpm Model Trans Config DemoNet.
Import ListNotations.
Open Scope string_scope.
Open Scope Z_scope.
Open Scope list_scope.

Section Functions.
Variable nx_path : graph -> string -> string -> option (list string).
Variable nx_wpath : graph -> string -> string -> res (list string).
Variable nx_wlen : graph -> string -> string -> res value.

(** demos/SF/batch.py 66-82 [main]: the matrix and the variables at its end.  [o] and [d] are '13' and '2'
    (77), [max_nb] comes from the file config.json.  Unlike the other demos the probabilities are lists
    (75) and the system function is given the variables (78), which it does not use without a threshold.
    The text in quotes (85-97) is not run. *)
Definition sf_main (f : netfile) (o d : string) (max_sf max_nb : Z) : res (list (list Z) * dict variable) :=
  net <- read_model f ;;
  let G := fst (fst net) in
  let edges := keys (snd (fst net)) in
  let varis := map (fun k => (k, two_state k)) edges in
  let probs : prob_dict := map (fun k => (k, PList [Q2Qc (1 # 2); Q2Qc (1 # 2)])) edges in
  let sys_fun := as_sysfun (fun x => sf_min_path nx_path nx_wpath nx_wlen x G o d varis None) in
  s <- run varis probs sys_fun (mkCfg max_sf (Some max_nb) 0%Qc None true true) None None ;;
  match s_brs s with
  | None => Err TypeError
  | Some brs => get_csys brs varis st_br_to_cs
  end.
End Functions.
