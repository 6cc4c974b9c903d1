(** Model of the path-based branch and bound: trans.py 272-365 and branch.py 470-645,
    724-748, with an explicit directory for the JSON files.  Arcs are named by strings,
    so that JSON returns the same dictionaries; the prints are left out. *)
From Coq Require Import ZArith List String Bool Arith QArith Qcanon DecimalString.
From Verif Require Import Py Num Vari.
Import ListNotations.
Open Scope string_scope.
Open Scope Z_scope.
Open Scope list_scope.

(** an entry (edges, time, state) of [path_time_idx] *)
Definition path_entry : Type := list string * value * Z.
Definition pe_path (e : path_entry) : list string := fst (fst e).
Definition pe_state (e : path_entry) : Z := snd e.

(** trans.py 357-363 (the same in 339-345): [path_is_surv and all(path_is_surv)] *)
Definition surv_list (arcs_state : dict Z) (arc_cond : Z) (edges : list string) : res (list bool) :=
  mapM (fun i => x <- dget arcs_state i ;; Ok (x =? arc_cond)) edges.
Definition path_surv (bs : list bool) : bool :=
  match bs with [] => false | _ => forallb (fun b => b) bs end.
Fixpoint eval_loop (l : list path_entry) (arcs_state : dict Z) (arc_cond : Z) (sys_state : Z) : res Z :=
  match l with
  | [] => Ok sys_state
  | e :: l' =>
      bs <- surv_list arcs_state arc_cond (pe_path e) ;;
      if path_surv bs then Ok (pe_state e) else eval_loop l' arcs_state arc_cond sys_state
  end.
(** trans.py 327-347 [eval_sys_state_given_arc] and 349-367 [eval_sys_state]: the same
    code with the arguments passed in different ways *)
Definition eval_sys_state (path_time_idx : list path_entry) (arcs_state : dict Z) (arc_cond : Z) : res Z :=
  match path_time_idx with
  | [] => Err IndexError
  | e :: _ => eval_loop path_time_idx arcs_state arc_cond (pe_state e)
  end.

(** [np.isclose(a, b)] on exact numbers: |a - b| <= 1e-8 + 1e-5 |b|; strings raise *)
Definition qabs (x : Qc) : Qc := if qc_leb 0%Qc x then x else (- x)%Qc.
Definition isclose (a b : value) : res bool :=
  match a, b with
  | VNum x, VNum y => Ok (qc_leb (qabs (x - y)%Qc) (Q2Qc (1 # 100000000) + Q2Qc (1 # 100000) * qabs y)%Qc)
  | VInf, VInf => Ok true
  | VNum _, VInf | VInf, VNum _ => Ok false
  | VStr _, _ | _, VStr _ => Err TypeError
  end.

Fixpoint close_idx (i : Z) (t : value) (vals : list value) : res (list Z) :=
  match vals with
  | [] => Ok []
  | y :: vals' => b <- isclose t y ;; l <- close_idx (i + 1) t vals' ;; Ok (if b then i :: l else l)
  end.

Definition is_inf (t : value) : bool := match t with VInf => true | _ => false end.

(** trans.py 284-291: entries without a close value are left out *)
Fixpoint path_idx (vals : list value) (path_time : list (list string * value)) : res (list path_entry) :=
  match path_time with
  | [] => Ok []
  | x :: l =>
      idx <- close_idx 0 (snd x) vals ;;
      r <- path_idx vals l ;;
      Ok (match idx with [] => r | i :: _ => (fst x, snd x, i) :: r end)
  end.

(** trans.py 272-299 [get_path_time_idx]; [np.inf in x] looks at the path (a list) and
    at the time *)
Definition get_path_time_idx (path_time : list (list string * value)) (vari : variable) : res (list path_entry) :=
  l <- path_idx (v_values vari) path_time ;;
  let l := sort_desc (fun y x => pe_state x <? pe_state y) l in
  Ok (if existsb (fun x => is_inf (snd x)) path_time then l else ([], VInf, 0) :: l).

(** a branch: (lower, upper, state at lower, state at upper) *)
Definition bb : Type := dict Z * dict Z * Z * Z.
Definition lower (b : bb) : dict Z := fst (fst (fst b)).
Definition upper (b : bb) : dict Z := snd (fst (fst b)).
Definition fl (b : bb) : Z := snd (fst b).
Definition fu (b : bb) : Z := snd b.
Definition bb_eqb (x y : bb) : bool :=
  dict_eqb (lower x) (lower y) && dict_eqb (upper x) (upper y) && (fl x =? fl y) && (fu x =? fu y).
Definition complete (b : bb) : bool := fl b =? fu b.

(** branch.py 562-577 [get_arcs_given_bstar] *)
Fixpoint arcs_loop (b : bb) (matched : list string) (l : list path_entry) : res (list string) :=
  match l with
  | [] => Ok []
  | e :: l' =>
      if forallb (fun x => mem_str x matched) (pe_path e) then
        r <- mapM (fun x => u <- dget (upper b) x ;; w <- dget (lower b) x ;; Ok (x, w <? u)) (pe_path e) ;;
        Ok (map fst (filter snd r))
      else arcs_loop b matched l'
  end.
Definition get_arcs_given_bstar (b : bb) (path_time_idx : list path_entry) (arc_cond : Z) : res (list string) :=
  arcs_loop b (map fst (filter (fun kv => snd kv =? arc_cond) (upper b))) (skipn 1 path_time_idx).

(** branch.py 593-601 [create_arc_state_given_cond] *)
Definition set_arc (arc : string) (v : Z) (d : dict Z) : dict Z :=
  map (fun kv => (fst kv, if String.eqb (fst kv) arc then v else snd kv)) d.

(** branch.py 630-643: one new branch per arc; the lower state grows, the upper state is
    that of the branch with one arc failed *)
Fixpoint split_loop (up : dict Z) (c_fl : Z) (path_time_idx : list path_entry) (arc_cond : Z)
    (arcs : list string) (low : dict Z) : res (list bb * dict Z) :=
  match arcs with
  | [] => Ok ([], low)
  | arc :: arcs' =>
      let u := set_arc arc 0 up in
      f <- eval_sys_state path_time_idx u arc_cond ;;
      r <- split_loop up c_fl path_time_idx arc_cond arcs' (set_arc arc 1 low) ;;
      Ok ((low, u, c_fl, f) :: fst r, snd r)
  end.
(** branch.py 623-645 [get_set_of_branches] *)
Definition get_set_of_branches (b : bb) (arcs : list string) (path_time_idx : list path_entry) (arc_cond : Z)
  : res (list bb) :=
  let upper_f := map (fun kv => (fst kv, if mem_str (fst kv) arcs then 1 else snd kv)) (upper b) in
  r <- split_loop (upper b) (fl b) path_time_idx arc_cond arcs (lower b) ;;
  Ok (fst r ++ [(snd r, upper_f, fu b, fu b)]).

(** branch.py 546-559 [bnb_core] *)
Definition bnb_core (bstars : list bb) (path_time_idx : list path_entry) (arc_cond : Z) : res (list (list bb)) :=
  mapM (fun b => arcs <- get_arcs_given_bstar b path_time_idx arc_cond ;;
                 get_set_of_branches b arcs path_time_idx arc_cond) bstars.

(** The directory: file names with their contents.  [open(f, 'w')] replaces the file. *)
Definition dir : Type := dict (list bb).
Definition num_str (i : nat) : string := NilZero.string_of_uint (Nat.to_uint i).
Definition dump_name (key : string) (i : nat) : string :=
  ("sb_dump_" ++ key ++ "_" ++ num_str i ++ ".json")%string.

(** branch.py 516-543 [branch_and_bound].  The loop need not end: [fuel]. *)
Fixpoint bnb_loop (fuel : nat) (i : nat) (bstars : list bb) (path_time_idx : list path_entry) (arc_cond : Z)
    (key : string) (d : dir) : res dir :=
  match bstars with
  | [] => Ok d
  | _ =>
      match fuel with
      | O => Err OutOfFuel
      | S fuel' =>
          results <- bnb_core bstars path_time_idx arc_cond ;;
          let new := filter (fun x => negb (existsb (bb_eqb x) bstars)) (List.concat results) in
          bnb_loop fuel' (S i) (filter (fun x => negb (complete x)) new) path_time_idx arc_cond key
                   (dset d (dump_name key i) new)
      end
  end.
Definition branch_and_bound (fuel : nat) (bstars : list bb) (path_time_idx : list path_entry) (arc_cond : Z)
    (key : string) (d : dir) : res dir :=
  bnb_loop fuel 0 bstars path_time_idx arc_cond key d.

(** [glob('sb_dump_{key}_*.json')] for a key without the special characters of glob *)
Definition has_suffix (s t : string) : bool :=
  (String.length s <=? String.length t)%nat &&
  String.eqb (substring (String.length t - String.length s) (String.length s) t) s.
Definition glob_match (key name : string) : bool :=
  let p := ("sb_dump_" ++ key ++ "_")%string in
  String.prefix p name &&
  has_suffix ".json" (substring (String.length p) (String.length name - String.length p) name).

(** branch.py 470-489 [get_sb_saved_from_job]; the files come in the order of [d]
    (that of the operating system) *)
Definition get_sb_saved (d : dir) (key : string) : list bb :=
  flat_map (fun f => if glob_match key (fst f) then filter complete (snd f) else []) d.
