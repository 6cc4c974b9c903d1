(** Model of /repo/BNS_JT/demos/power_house/batch.py: the Bayesian network of power cuts. *)
From Coq Require Import ZArith List String Bool Arith QArith Qcanon.
From Verif Require Import Py Num Vari Cpm SysVal Bnb.
Import ListNotations.
Open Scope string_scope.
Open Scope Z_scope.
Open Scope list_scope.
Notation "a +s b" := (String.append a b) (at level 60, right associativity, only parsing).

(** power_house/batch.py 19-39 [get_lins]: [p.index(pole1)] is the first position *)
Definition get_lins (pole : string) (paths : dict (list (list string))) : list (list string) :=
  flat_map (fun sp => flat_map (fun p =>
    match find_idx (String.eqb pole) p with
    | Some i => [fst sp :: firstn (S i) p]
    | None => []
    end) (snd sp)) paths.

(** batch.py 299-307, the loop of [main] that collects the link sets of the houses *)
Definition house_lins (houses : dict (list string)) (paths : dict (list (list string))) : dict (list (list string)) :=
  fold_left (fun d hp => dset d (fst hp) (flat_map (fun pl => get_lins pl paths) (snd hp))) houses [].

(** the two dictionaries [cpms] and [varis] *)
Definition net : Type := (dict cpm * dict variable)%type.
Definition put (st : net) (name : string) (M : cpm) (v : variable) : net := (dset (fst st) name M, dset (snd st) name v).

(** [list(range(n))] as values *)
Definition num_values (n : nat) : list value := map (fun k => VNum (qz k)) (zrange 0 (Z.of_nat n)).
(** a value used as a state number in an integer array, and in [v + 1]: strings and [inf]
    do not fit.  Numbers with a fraction would be cut off; they do not occur. *)
Definition as_int (v : value) : res Z :=
  match v with VNum q => Ok (Qnum (this q) / Zpos (Qden (this q))) | _ => Err TypeError end.

(** batch.py 96-100.  The one-dimensional [C] becomes a column and the list [p] a column (cpm.py, setters of [C] and [p]). *)
Definition hazard_node (haz : dict Qc) : res net :=
  let v := mk_variable "haz" (map VStr (keys haz)) None in
  M <- mk_cpm [v] 1 (map (fun k => [k]) (zrange 0 (Z.of_nat (List.length haz)))) (map snd haz) ;;
  Ok (put ([], []) "haz" M v).

(** batch.py 103-106 [C_x] *)
Definition struct_rows (haz : dict Qc) : list (list Z) :=
  flat_map (fun hs => [[0; hs]; [1; hs]]) (zrange 0 (Z.of_nat (List.length haz))).
(** batch.py 108-117, one structure *)
Definition struct_step (haz : dict Qc) (st : net) (sp : string * list Qc) : res net :=
  let name := ("x" +s fst sp) in
  let v := mk_variable name [VStr "fail"; VStr "surv"] None in
  h <- dget (dset (snd st) name v) "haz" ;;
  M <- mk_cpm [v; h] 1 (struct_rows haz) (flat_map (fun p => [p; 1 - p]%Qc) (snd sp)) ;;
  Ok (put st name M v).

(** batch.py 120-137, structure number [i] of the repair order; [n_old] is the name of the
    previous node (always there from the second structure on) *)
Definition number_step (sto : net * string) (is : nat * string) : res (net * string) :=
  let '(st, n_old) := sto in
  let name := ("n" +s snd is) in
  let v := mk_variable name (num_values (fst is + 2)) None in
  let vs := dset (snd st) name v in
  if (fst is <? 1)%nat then
    x <- dget vs ("x" +s snd is) ;;
    M <- mk_cpm [v; x] 1 [[1; 0]; [0; 1]] [1; 1]%Qc ;;
    Ok (put st name M v, name)
  else
    o <- dget vs n_old ;;
    ks <- mapM as_int (v_values o) ;;
    x <- dget vs ("x" +s snd is) ;;
    let rows := flat_map (fun k => [[k; 1; k]; [k + 1; 0; k]]) ks in
    M <- mk_cpm [v; x; o] 1 rows (repeat 1%Qc (2 * List.length ks)) ;;
    Ok (put st name M v, name).

(** batch.py 140-156, one structure.  Without a table [None.index] is an AttributeError, which
    is caught: the variable is there, the CPM is not. *)
Definition closure_step (st : net) (s : string) : res net :=
  let name := ("c" +s s) in
  vn <- dget (snd st) ("n" +s s) ;;
  let v := mk_variable name (v_values vn) None in
  let vs := dset (snd st) name v in
  match v_B vn with
  | None => Ok (fst st, vs)
  | Some B =>
      ks <- mapM as_int (v_values vn) ;;
      all <- py_list_index (set_eqb ks) B ;;
      let rows := [0; 1; all] :: map (fun k => [k; 0; k]) (filter (fun k => 0 <? k) ks) in
      x <- dget vs ("x" +s s) ;;
      M <- mk_cpm [v; x; vn] 1 rows (repeat 1%Qc (List.length rows)) ;;
      Ok (put st name M v)
  end.

(** batch.py 159-173, one house; [sys_max_val] and [sys_min_val] are in SysVal.v *)
Definition set_step (st : net) (ns : string * list string) : res net :=
  vars <- mapM (fun x => dget (snd st) ("c" +s x)) (snd ns) ;;
  '(M, v) <- sys_max_val (fst ns) vars ;;
  Ok (put st (fst ns) M v).
Definition house_step (st : net) (hs : string * list (list string)) : res net :=
  match snd hs with
  | [s] => set_step st (fst hs, s)
  | sets =>
      let ns := map (fun i => fst hs +s num_str i) (seq 0 (List.length sets)) in
      st <- foldM set_step (combine ns sets) st ;;
      vars <- mapM (dget (snd st)) ns ;;
      '(M, v) <- sys_min_val (fst hs) vars ;;
      Ok (put st (fst hs) M v)
  end.

(** batch.py 86-175 [quant_cpms]; [print] is left out *)
Definition quant_cpms (haz : dict Qc) (pfs : dict (list Qc)) (rep : list string) (lins : dict (list (list string))) : res net :=
  st <- hazard_node haz ;;
  st <- foldM (struct_step haz) pfs st ;;
  '(st, _) <- foldM number_step (combine (seq 0 (List.length rep)) rep) (st, "") ;;
  st <- foldM closure_step rep st ;;
  foldM house_step lins st.
