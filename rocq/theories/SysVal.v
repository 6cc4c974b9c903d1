(** Model of [sys_max_val] and [sys_min_val], /repo/BNS_JT/operation.py 755-884. *)
From Coq Require Import ZArith List String Bool Arith QArith Qcanon.
From Verif Require Import Py Num Vari Cpm.
Import ListNotations.
Open Scope string_scope.
Open Scope Z_scope.
Open Scope list_scope.

(** Values are numbers, [inf], or strings.  Comparing a number with a string is a
    TypeError; [extreme] and [sort_vars] below raise it before any other comparison is
    made, so that the order chosen here between the kinds is never used. *)
Definition same_kind (a b : value) : bool :=
  match a, b with
  | VStr _, VStr _ => true
  | VStr _, _ | _, VStr _ => false
  | _, _ => true
  end.
Definition v_ltb (a b : value) : bool :=
  match a, b with
  | VNum x, VNum y => qc_ltb x y
  | VNum _, _ => true
  | VInf, VStr _ => true
  | VStr s, VStr t => String.ltb s t
  | _, _ => false
  end.
Definition v_gtb (a b : value) : bool := v_ltb b a.
Definition val_eqb (a b : value) : bool :=
  match a, b with
  | VNum x, VNum y => qc_eqb x y
  | VInf, VInf => true
  | VStr s, VStr t => String.eqb s t
  | _, _ => false
  end.

(** operation.py 767-768 [min(var.values)] ([lt] is [<]), 830-831 [max(var.values)]
    ([lt] is [>]): ValueError on an empty list *)
Definition extreme (lt : value -> value -> bool) (l : list value) : res value :=
  match l with
  | [] => Err ValueError
  | x :: l' => if forallb (same_kind x) l' then Ok (fold_left (fun m y => if lt y m then y else m) l' x) else Err TypeError
  end.

(** operation.py 770-771, 833-834: the variables by ascending key, stable; all keys are
    computed first *)
Definition sort_vars (lt : value -> value -> bool) (vars : list variable) : res (list variable) :=
  ks <- mapM (fun v => extreme lt (v_values v)) vars ;;
  if forallb (same_kind (hd VInf ks)) (tl ks)
  then Ok (map snd (sort_desc (fun a b => v_ltb (fst a) (fst b)) (combine ks vars)))
  else Err TypeError.

Definition sort_vals (l : list value) : list value := sort_desc v_ltb l.

(** [{y for y, z in enumerate(values) if f z}] *)
Definition positions (f : value -> bool) (values : list value) : list Z :=
  map fst (filter (fun yz => f (snd yz)) (combine (zrange 0 (Z.of_nat (List.length values))) values)).

(** [row[k] = x] *)
Fixpoint set_nth (k : nat) (x : Z) (row : list Z) : list Z :=
  match row, k with
  | [], _ => []
  | _ :: row', O => x :: row'
  | y :: row', S k' => y :: set_nth k' x row'
  end.

(** [vars_p.index(p)]: by name *)
Definition var_index (vars : list variable) (p : variable) : res nat :=
  match find_idx (v_eqb p) vars with Some j => Ok j | None => Err ValueError end.
(** [p.B.index(s)] *)
Definition table_index (p : variable) (s : list Z) : res Z :=
  match v_B p with None => Err AttributeError | Some B => py_list_index (set_eqb s) B end.

(** operation.py 790-794 and 796: the states of [p2], number [i2] in the sorted list,
    that are beaten by the value [v] of variable number [i]; [z <= v] is [not v < z] *)
Definition beaten (lt : value -> value -> bool) (i i2 : nat) (v : value) (p2 : variable) : list Z :=
  positions (fun z => if (i2 <? i)%nat then lt z v else negb (lt v z)) (v_values p2).

(** operation.py 788-803, loop over [vars_p_s]; [None] is [add = False] *)
Fixpoint fill_row (lt : value -> value -> bool) (vars : list variable) (i : nat) (v : value)
    (ps : list (nat * variable)) (row : list Z) : res (option (list Z)) :=
  match ps with
  | [] => Ok (Some row)
  | (i2, p2) :: ps' =>
      if (i =? i2)%nat then fill_row lt vars i v ps' row else
      match beaten lt i i2 v p2 with
      | [] => Ok None
      | s => st <- table_index p2 s ;; j2 <- var_index vars p2 ;; fill_row lt vars i v ps' (set_nth (S j2) st row)
      end
  end.

(** operation.py 781-809, the body for variable number [i] and its value [v] *)
Definition value_step (lt : value -> value -> bool) (vars : list variable) (ps : list (nat * variable))
    (st : list value * list (list Z)) (ipv : nat * variable * value) : res (list value * list (list Z)) :=
  let '(vals, C) := st in
  let '(i, p, v) := ipv in
  j <- var_index vars p ;;
  k <- py_list_index (val_eqb v) (v_values p) ;;
  o <- fill_row lt vars i v ps (set_nth (S j) k (repeat 0 (S (List.length vars)))) ;;
  match o with
  | None => Ok (vals, C)
  | Some row =>
      let vals' := if existsb (val_eqb v) vals then vals else vals ++ [v] in
      s <- py_list_index (val_eqb v) vals' ;;
      Ok (vals', C ++ [set_nth 0 s row])
  end.

(** all (variable number, variable, value) in the order of the loops *)
Definition loop_items (ps : list (nat * variable)) : list (nat * variable * value) :=
  flat_map (fun ip => map (fun v => (ip, v)) (sort_vals (v_values (snd ip)))) ps.

(** the common body of the two functions, operation.py 770-815 and 833-881.  [B_flag] is
    ignored ('store' is passed on). *)
Definition sys_val (key lt : value -> value -> bool) (name : string) (vars : list variable) : res (cpm * variable) :=
  ps <- sort_vars key vars ;;
  let ips := combine (seq 0 (List.length ps)) ps in
  '(vals, C) <- foldM (value_step lt vars ips) (loop_items ips) ([], []) ;;
  let var_new := mk_variable name (sort_vals vals) (Some FStore) in
  M <- mk_cpm (var_new :: vars) 1 C (map (fun _ => 1%Qc) C) ;;
  Ok (M, var_new).

(** operation.py 755-817: sorted by minimum; [z < v], [z <= v] *)
Definition sys_max_val := sys_val v_ltb v_ltb.
(** operation.py 820-884: sorted by maximum; [z > v], [z >= v] *)
Definition sys_min_val := sys_val v_gtb v_gtb.
