(** Model of the way the pieces are put together: model.py 91-157 and the same
    steps in tests/test_brc.py 770-797 and demos/EMA/brc.py. *)
From Coq Require Import ZArith List String Bool QArith Qcanon.
From Verif Require Import Py Num Vari Brc Cpm.
Import ListNotations.
Open Scope string_scope.
Open Scope Z_scope.
Open Scope list_scope.

(** model.py 104-107 (tests/test_brc.py 783-787): the CPM of one component lists its
    basic states, [C = np.arange(n)[:, np.newaxis]], with the probabilities
    [p = [probs[k][0], ..., probs[k][n-1]]].  [Cpm] checks shapes and codes. *)
Definition component_cpm (probs : prob_dict) (k : string) (v : variable) : res cpm :=
  d <- dget probs k ;;
  p <- mapM (pget d) (zrange 0 (nvals v)) ;;
  mk_cpm [v] 1 (map (fun s => [s]) (zrange 0 (nvals v))) p.

(** model.py 117-121 (tests/test_brc.py 789-794): the system variable first, then the
    components in the order of the dictionary; [p = np.ones(c.shape[0])] *)
Definition system_cpm (vsys : variable) (varis : dict variable) (rows : list (list Z)) : res cpm :=
  mk_cpm (vsys :: map snd varis) 1 rows (map (fun _ => 1%Qc) rows).

(** the dictionary [cpms]: components, then the system *)
Definition build_cpms (vsys : variable) (varis : dict variable) (probs : prob_dict) (rows : list (list Z))
  : res (dict cpm) :=
  comps <- mapM (fun kv => M <- component_cpm probs (fst kv) (snd kv) ;; Ok (fst kv, M)) varis ;;
  Ms <- system_cpm vsys varis rows ;;
  Ok (comps ++ [(v_name vsys, Ms)]).

(** model.py 127-157 [compute_prob] (the configuration argument is not used);
    [variable_elim] and [get_prob] are those of Cpm.v *)
Definition compute_prob (cpms : dict cpm) (varis : dict variable) (var_elim : list string)
    (key : string) (idx_state : astate) (flag : bool) : res (Qc * cpm) :=
  M <- mapM (dget cpms) (var_elim ++ [key]) ;;
  vs <- mapM (dget varis) var_elim ;;
  M2 <- variable_elim M vs ;;
  v <- dget varis key ;;
  p <- get_prob M2 (Vars [v]) [idx_state] flag ;;
  Ok (p, M2).
