(** Model of the map of poles, /repo/BNS_JT/demos/power_house/batch.py 178-219. *)
From Coq Require Import ZArith List String Bool Arith QArith Qcanon.
From Verif Require Import Py Num Vari.
Import ListNotations.
Open Scope string_scope.
Open Scope Z_scope.
Open Scope list_scope.

(** batch.py 197-200, 203-206: the first house with the pole; None if the loop ends without one *)
Definition house_of (houses : dict (list string)) (pl : string) : option string :=
  match find (fun hp => mem_str pl (snd hp)) houses with Some hp => Some (fst hp) | None => None end.
(** a variable that keeps its value when nothing is assigned; None is unbound *)
Definition keep (old new : option string) : option string := match new with Some _ => new | None => old end.
(** batch.py 188-201, one substation: the first of its paths with the pole; the loop over the
    substations goes on *)
Definition tail_step (houses : dict (list string)) (pl : string) (tail : option string) (sp : string * list (list string)) : option string :=
  match find (mem_str pl) (snd sp) with
  | None => tail
  | Some path1 =>
      match find_idx (String.eqb pl) path1 with
      | None => tail
      | Some O => Some (fst sp)
      | Some (S i) => keep tail (house_of houses (nth i path1 ""))
      end
  end.
(** batch.py 187-207, one pole; [pl_tail] and [pl_head] are still those of the pole before *)
Definition pole_step (paths : dict (list (list string))) (houses : dict (list string))
    (s : option string * option string * dict (string * string)) (pl : string) : res (option string * option string * dict (string * string)) :=
  let '(tail, head, conn) := s in
  let tail' := fold_left (tail_step houses pl) paths tail in
  let head' := keep head (house_of houses pl) in
  match tail', head' with
  | Some t, Some h => Ok (tail', head', dset conn pl (t, h))
  | _, _ => Err UnboundLocalError
  end.
(** batch.py 180-184: the set of poles *)
Definition all_poles (paths : dict (list (list string))) : list string := List.concat (List.concat (map snd paths)).
(** batch.py 178-209 [get_pole_conn]; [order] is the order in which Python goes through the
    set of poles, each once *)
Definition get_pole_conn (order : list string) (paths : dict (list (list string))) (houses : dict (list string)) : res (dict (string * string)) :=
  r <- foldM (pole_step paths houses) order (None, None, []) ;; Ok (snd r).

(** batch.py 212-219 [add_pole_loc]: [zip] ends with the shorter place *)
Definition midpoint (a b : list Qc) : list Qc := map (fun xy => (Q2Qc (1 # 2) * (fst xy + snd xy))%Qc) (combine a b).
Definition add_pole_loc (locs : dict (list Qc)) (conn : dict (string * string)) : res (dict (list Qc)) :=
  foldM (fun l pc => a <- dget locs (fst (snd pc)) ;; b <- dget locs (snd (snd pc)) ;; Ok (dset l (fst pc) (midpoint a b))) conn locs.
