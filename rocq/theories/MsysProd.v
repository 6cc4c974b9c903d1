(** Model of [prod_Msys_and_Mcomps], /repo/BNS_JT/operation.py 562-654, for CPMs without
    samples (the branch for [Cs] is in [HybProd.v]). *)
From Coq Require Import ZArith List String Bool Arith QArith Qcanon.
From Verif Require Import Py Num Vari Cpm.
Import ListNotations.
Open Scope string_scope.
Open Scope Z_scope.
Open Scope list_scope.

(** [x.variables[0].name] *)
Definition comp_name (M : cpm) : res string :=
  match c_vars M with [] => Err IndexError | v :: _ => Ok (v_name v) end.

(** operation.py 569-583: which component CPM multiplies the parent [v] *)
Definition mult_idx (comp_names : list string) (v : variable) : option nat :=
  find_idx (String.eqb (v_name v)) comp_names.
Definition is_mult (comp_names : list string) (v : variable) : bool :=
  match mult_idx comp_names v with Some _ => true | None => false end.

(** list equality of Variables *)
Fixpoint vars_eqb (a b : list variable) : bool :=
  match a, b with
  | [], [] => true
  | x :: a', y :: b' => v_eqb x y && vars_eqb a' b'
  | _, _ => false
  end.

(** operation.py 585-594: the conditional variables with their states.  [all] asks for
    the truth value of the array [c[1:] == cond_st], a ValueError unless it has one
    entry. *)
Definition cond_of (Ms : list cpm) : res (list (variable * Z)) :=
  match Ms with
  | [] => Err IndexError
  | M0 :: _ =>
      match skipn (c_nch M0) (c_vars M0) with
      | [] => Ok []
      | cv =>
          if negb (forallb (fun x => vars_eqb (skipn 1 (c_vars x)) cv) Ms) then Err AssertionError else
          match c_C M0 with
          | [] => Err IndexError
          | r0 :: _ =>
              match cv, skipn (c_nch M0) r0 with
              | [y], [s] => if forallb (fun m => forallb (fun c => at_ c 1 =? s) (c_C m)) Ms then Ok [(y, s)] else Err AssertionError
              | _, _ => Err ValueError
              end
          end
      end
  end.

(** operation.py 608-614: columns for the conditional variables that are not yet there *)
Fixpoint add_conds (cs : list (variable * Z)) (par : list variable) (C : list (list Z)) : list variable * list (list Z) :=
  match cs with
  | [] => (par, C)
  | (v, s) :: cs' =>
      if existsb (v_eqb v) par then add_conds cs' par C
      else add_conds cs' (par ++ [v]) (map (fun row => row ++ [s]) C)
  end.

(** operation.py 620-625 for one component and one row: sum over the basic states of
    the code of the probability of the first row of the component with that state; the
    table is that of the component's variable, [None] is not subscriptable *)
Definition comp_prob (m : cpm) (st : Z) : res Qc :=
  match c_vars m with
  | [] => Err IndexError
  | v :: _ =>
      match v_B v with
      | None => Err TypeError
      | Some B =>
          e <- py_index B st ;;
          ps <- mapM (fun k => match find_idx (fun c => at_ c 0 =? k) (c_C m) with
                               | None => Err ValueError
                               | Some r => match nth_error (c_p m) r with Some x => Ok x | None => Err IndexError end
                               end) e ;;
          Ok (qsum ps)
      end
  end.

(** operation.py 616-627: component number [i] is in column [nch + i] *)
Definition mult_comp (Ms : list cpm) (nch : nat) (C : list (list Z)) (p : list Qc) (ii : nat * nat) : res (list Qc) :=
  match nth_error Ms (snd ii) with
  | None => Err IndexError
  | Some m => mapM (fun rp => x <- comp_prob m (at_ (fst rp) (nch + fst ii)) ;; Ok (snd rp * x)%Qc) (combine C p)
  end.

(** operation.py 562-654 *)
Definition prod_sys (Msys : cpm) (Ms : list cpm) : res cpm :=
  if negb (forallb (fun x => (c_nch x =? 1)%nat) Ms) then Err AssertionError else
  ns <- mapM comp_name Ms ;;
  let mult := filter (is_mult ns) (parents Msys) in
  let par := filter (fun v => negb (is_mult ns v)) (parents Msys) in
  let ch := children Msys ++ mult in
  cs <- cond_of Ms ;;
  match c_C Msys with
  | [] => Err UnboundLocalError
  | _ =>
      idx <- mapM (name_index Msys) (names (ch ++ par)) ;;
      let C := map (fun row => cols row idx) (c_C Msys) in
      let '(par', C') := add_conds cs par C in
      let idxs := flat_map (fun v => match mult_idx ns v with Some i => [i] | None => [] end) (parents Msys) in
      p <- foldM (mult_comp Ms (c_nch Msys) C') (combine (seq 0 (List.length idxs)) idxs) (c_p Msys) ;;
      mk_cpm (ch ++ par') (List.length ch) C' p
  end.
