(** Model of /repo/BNS_JT/cpm.py, for CPMs without samples ([Cs], [q], [ps],
    [sample_idx] empty).  A matrix is a list of rows; a matrix without rows
    still has as many columns as the CPM has variables (numpy shape (0, n)). *)
From Coq Require Import ZArith List String Bool Arith QArith Qcanon.
From Verif Require Import Py Num Vari.
Import ListNotations.
Open Scope string_scope.
Open Scope Z_scope.
Open Scope list_scope.

(** cpm.py 36-46; [no_child] is not negative; [c_p] is empty when absent *)
Record cpm : Type := mkCpm {
  c_vars : list variable;
  c_nch : nat;
  c_C : list (list Z);
  c_p : list Qc
}.

Definition nrows (M : cpm) : nat := List.length (c_C M).
Definition ncols (M : cpm) : nat := List.length (c_vars M).
Definition children (M : cpm) : list variable := firstn (c_nch M) (c_vars M).
Definition parents (M : cpm) : list variable := skipn (c_nch M) (c_vars M).
Definition names (l : list variable) : list string := map v_name l.

(** variable.py 309-314 [Variable.__eq__]: by name *)
Definition v_eqb (a b : variable) : bool := String.eqb (v_name a) (v_name b).

(** [row[i]] for an index that numpy has checked *)
Definition at_ (row : list Z) (i : nat) : Z := nth i row 0.
Definition cols (row : list Z) (idx : list nat) : list Z := map (at_ row) idx.

(** test of cpm.py 77-82 on one column: no code above [2**n - 1] *)
Definition col_max_ok (C : list (list Z)) (iv : nat * variable) : bool :=
  forallb (fun row => at_ row (fst iv) <=? 2 ^ nvals (snd iv) - 1) C.

(** cpm.py 68-84, setter of [C] (for two-dimensional arrays) *)
Definition check_C (vars : list variable) (C : list (list Z)) : res unit :=
  match C with
  | [] => Ok tt
  | _ =>
      if negb (forallb (fun row => (List.length row =? List.length vars)%nat) C) then Err AssertionError
      else if forallb (col_max_ok C) (combine (seq 0 (List.length vars)) vars) then Ok tt
      else Err AssertionError
  end.

(** cpm.py 90-103, setter of [p] *)
Definition check_p (C : list (list Z)) (p : list Qc) : res unit :=
  match p with
  | [] => Ok tt
  | _ => if (List.length p =? List.length C)%nat then Ok tt else Err AssertionError
  end.

(** cpm.py 36-46 [Cpm.__init__] *)
Definition mk_cpm (vars : list variable) (nch : nat) (C : list (list Z)) (p : list Qc) : res cpm :=
  if (nch <=? List.length vars)%nat then
    _ <- check_C vars C ;;
    _ <- check_p C p ;;
    Ok (mkCpm vars nch C p)
  else Err AssertionError.

(** Arguments that are lists of names or lists of Variables; the code looks at
    the first entry only, so mixed lists are not modelled. *)
Inductive varg : Type := Names (l : list string) | Vars (l : list variable).
(** a state is an int or a string *)
Inductive astate : Type := SI (z : Z) | SS (s : string).

(** cpm.py 191-197 [Cpm.get_variables] *)
Definition get_variable (M : cpm) (name : string) : res variable :=
  match find (fun v => String.eqb (v_name v) name) (c_vars M) with
  | Some v => Ok v | None => Err IndexError end.
Definition resolve (M : cpm) (a : varg) : res (list variable) :=
  match a with Names l => mapM (get_variable M) l | Vars l => Ok l end.

(** equality of entries of [Variable.values] with a state *)
Definition value_is (s : astate) (v : value) : bool :=
  match s, v with
  | SI z, VNum q => qc_eqb (qz z) q
  | SS a, VStr b => String.eqb a b
  | _, _ => false
  end.
(** [variable.values.index(state)] *)
Definition value_index (v : variable) (s : astate) : res Z := py_list_index (value_is s) (v_values v).

(** cpm.py 959-997 [ismember] for two lists of Variables: position of the first
    equal entry, or None (Python's False) *)
Definition ismember (A B : list variable) : list (option nat) := map (fun x => find_idx (v_eqb x) B) A.
Definition is_some {A} (o : option A) : bool := match o with Some _ => true | None => false end.

(** cpm.py 1011-1022 [get_value_given_condn] on lists *)
Definition select {A} (l : list A) (condn : list bool) : list A :=
  map snd (filter (fun bx => fst bx) (combine condn l)).
Definition get_value {A} (l : list A) (condn : list bool) : res (list A) :=
  if (List.length l =? List.length condn)%nat then Ok (select l condn) else Err AssertionError.
Fixpoint somes {A} (l : list (option A)) : list A :=
  match l with [] => [] | Some a :: l' => a :: somes l' | None :: l' => somes l' end.

(** [dict.fromkeys] on Variables (hash and equality by name) *)
Fixpoint dedup (l : list variable) : list variable :=
  match l with [] => [] | a :: l' => a :: filter (fun b => negb (v_eqb b a)) (dedup l') end.
(** cpm.py 1000-1008 [setdiff] on Variables *)
Definition setdiff (first second : list variable) : list variable * list nat :=
  let first' := dedup first in
  let val := filter (fun x => negb (existsb (v_eqb x) second)) first' in
  (val, somes (ismember val first')).

(** [bool(a.intersection(b))] and [a.intersection(b)] *)
Definition meets (a b : list Z) : bool := existsb (fun x => mem_Z x b) a.
Definition inter (a b : list Z) : list Z := filter (fun x => mem_Z x b) a.

(** [is_cmp[np.where(is_cmp > 0)[0][:len(check)]] = check]: the entries that are
    true are replaced in order *)
Fixpoint put_true (is check : list bool) : list bool :=
  match is with
  | [] => []
  | false :: is' => false :: put_true is' check
  | true :: is' => match check with
                   | c :: check' => c :: put_true is' check'
                   | [] => true :: put_true is' []
                   end
  end.

(** one column of the function [iscompatible], cpm.py 1048-1072.  [B is None]
    makes [B[...]] a TypeError and then [variable.B_fly] an AttributeError (the
    class has no such attribute).  An IndexError for the state is printed and
    the column ignored (line 1064). *)
Definition fn_column (C : list (list Z)) (is : list bool) (v : variable) (state : astate) (col : nat)
  : res (list bool) :=
  st <- (match state with SI z => Ok z | SS _ => value_index v state end) ;;
  match select C is with
  | [] => Ok is
  | rows =>
      match v_B v with
      | None => Err AttributeError
      | Some B =>
          x1 <- mapM (fun row => py_index B (at_ row col)) rows ;;
          match py_index B st with
          | Ok e => Ok (put_true is (map (meets e) x1))
          | Err _ => Ok is
          end
      end
  end.

(** cpm.py 1025-1074, function [iscompatible] (check variables already resolved) *)
Definition fn_iscompatible (C : list (list Z)) (vars check_vars : list variable) (check_states : list astate)
  : res (list bool) :=
  let idx := ismember check_vars vars in
  sts <- get_value check_states (map is_some idx) ;;
  let todo := combine (combine (select check_vars (map is_some idx)) sts) (somes idx) in
  foldM (fun is t => fn_column C is (fst (fst t)) (snd (fst t)) (snd t)) todo (map (fun _ => true) C).

(** one column of the method [iscompatible], cpm.py 317-332; [flag=False] uses
    the singletons 0..max instead of the table of the variable *)
Definition mt_column (C : list (list Z)) (flag : bool) (is : list bool) (v : variable) (state : Z) (col : nat)
  : res (list bool) :=
  let B := if flag then v_B v
           else Some (map (fun i => [i]) (zrange 0 (fold_right Z.max 0 (map (fun row => at_ row col) C) + 1))) in
  match select C is with
  | [] => Ok is
  | rows =>
      match B with
      | None => Err AttributeError
      | Some B =>
          x1 <- mapM (fun row => py_index B (at_ row col)) rows ;;
          e <- py_index B state ;;
          Ok (put_true is (map (meets e) x1))
      end
  end.

(** cpm.py 289-382, method [Cpm.iscompatible(M, flag)]; [M] has one row; with no
    columns [M.C.size] is 0 and the result is unbound *)
Definition mt_iscompatible (C : list (list Z)) (vars mvars : list variable) (mrow : list Z) (flag : bool)
  : res (list bool) :=
  match mvars with
  | [] => Err UnboundLocalError
  | _ =>
      let idx := ismember mvars vars in
      sts <- get_value mrow (map is_some idx) ;;
      let todo := combine (combine (select mvars (map is_some idx)) sts) (somes idx) in
      foldM (fun is t => mt_column C flag is (fst (fst t)) (snd (fst t)) (snd t)) todo (map (fun _ => true) C)
  end.

(** positions of the true entries: [np.where(x)[0]] *)
Fixpoint where_from (n : nat) (l : list bool) : list nat :=
  match l with [] => [] | b :: l' => if b then n :: where_from (S n) l' else where_from (S n) l' end.
Definition where_ (l : list bool) : list nat := where_from 0 l.

Definition take_rows {A} (l : list A) (idx : list nat) : list A :=
  flat_map (fun i => match nth_error l i with Some x => [x] | None => [] end) idx.

(** cpm.py 204-236 [Cpm.get_subset] with isC=True; row numbers are not negative *)
Definition get_subset (M : cpm) (rows : list nat) (flag : bool) : res cpm :=
  idx <- (if flag then
            if forallb (fun i => (i <? nrows M)%nat) rows then Ok rows else Err AssertionError
          else Ok (filter (fun i => negb (existsb (Nat.eqb i) rows)) (seq 0 (nrows M)))) ;;
  mk_cpm (c_vars M) (c_nch M) (take_rows (c_C M) idx) (take_rows (c_p M) idx).

(** [self.get_names().index(name)] *)
Definition name_index (M : cpm) (n : string) : res nat :=
  match find_idx (fun v => String.eqb n (v_name v)) (c_vars M) with Some i => Ok i | None => Err ValueError end.
Definition nodup_names (l : list string) : bool :=
  (List.length (nodup string_dec l) =? List.length l)%nat.

(** cpm.py 385-398 [Cpm.get_col_ind] *)
Definition get_col_ind (M : cpm) (l : list string) : res (list nat) :=
  if nodup_names l then mapM (name_index M) l else Err AssertionError.
(** cpm.py 400-412 [Cpm.get_col] *)
Definition get_col (M : cpm) (l : list string) : res (list (list Z)) :=
  idx <- get_col_ind M l ;; Ok (map (fun row => cols row idx) (c_C M)).
(** cpm.py 274-286 [Cpm.get_means]; without probabilities [self.p[:, 0]] is empty
    and cannot be multiplied with a non-empty column *)
Definition get_means (M : cpm) (l : list string) : res (list Qc) :=
  idx <- get_col_ind M l ;;
  match c_p M, c_C M with
  | [], _ :: _ :: _ => match idx with [] => Ok [] | _ => Err ValueError end
  | _, _ => Ok (map (fun i => qsum (map (fun rp => (qz (at_ (fst rp) i) * snd rp)%Qc) (combine (c_C M) (c_p M)))) idx)
  end.

(** cpm.py 415-436 [Cpm.merge].  [copy.copy] shares the array [p], so the result's
    probabilities are also those of [self] afterwards.  [list.index] raises
    ValueError, which [except IndexError] does not catch; an IndexError occurs
    only when [self.p] is empty, and then the setter of [p] fails. *)
Definition row_eqb (a b : list Z) : bool := tuple_eqb a b.
Fixpoint add_at (p : list Qc) (i : nat) (x : Qc) : list Qc :=
  match p, i with
  | [], _ => []
  | q :: p', O => (q + x)%Qc :: p'
  | q :: p', S i' => q :: add_at p' i' x
  end.
Definition merge_row (C : list (list Z)) (p : list Qc) (rp : list Z * Qc) : res (list Qc) :=
  match find_idx (row_eqb (fst rp)) C with
  | None => Err ValueError
  | Some i => match p with [] => Err AssertionError | _ => Ok (add_at p i (snd rp)) end
  end.
Definition merge (M1 M2 : cpm) : res cpm :=
  if (List.length (c_vars M1) =? List.length (c_vars M2))%nat &&
     forallb (fun ab => v_eqb (fst ab) (snd ab)) (combine (c_vars M1) (c_vars M2)) then
    p <- foldM (merge_row (c_C M1)) (combine (c_C M2) (c_p M2)) (c_p M1) ;;
    Ok (mkCpm (c_vars M1) (c_nch M1) (c_C M1) p)
  else Err AssertionError.

(** cpm.py 486-502, the while loop of [sum]; [fuel] is the number of rows *)
Fixpoint sum_loop (fuel : nat) (M : cpm) : res (list (list Z) * list Qc) :=
  match c_C M, c_vars M with
  | [], _ | _, [] => Ok ([], [])
  | r :: _, _ =>
      match fuel with
      | O => Err OutOfFuel
      | S fuel' =>
          is <- mt_iscompatible (c_C M) (c_vars M) (c_vars M) r false ;;
          M' <- get_subset M (where_ is) false ;;
          '(Cs, ps) <- sum_loop fuel' M' ;;
          Ok (r :: Cs, match c_p M with [] => ps | _ => qsum (take_rows (c_p M) (where_ is)) :: ps end)
      end
  end.

Definition sort_nat (l : list nat) : list nat := sort_desc Nat.ltb l.

(** cpm.py 439-519 [Cpm.sum].  Reshaping an empty list to no columns is a
    ValueError (line 506). *)
Definition sum (M : cpm) (variables : varg) (flag : bool) : res cpm :=
  vs <- resolve M variables ;;
  let '(rem, idx) :=
    if flag then setdiff (children M) vs
    else let i := sort_nat (somes (ismember vs (children M))) in (take_rows (c_vars M) i, i) in
  let no_child := List.length rem in
  let rem' := rem ++ parents M in
  let idx' := idx ++ seq (c_nch M) (ncols M - c_nch M) in
  M1 <- mk_cpm (take_rows (c_vars M) idx') (List.length idx') (map (fun row => cols row idx') (c_C M)) (c_p M) ;;
  '(Cs, ps) <- sum_loop (nrows M1) M1 ;;
  match idx' with
  | [] => Err ValueError
  | _ => mk_cpm rem' no_child Cs ps
  end.

(** cpm.py 536-543: string states become positions; if there is any, the list is
    replaced by the converted ones alone *)
Fixpoint convert_states (vs : list variable) (sts : list astate) : res (list Z) :=
  match vs, sts with
  | v :: vs', SS s :: sts' =>
      match value_index v (SS s) with
      | Ok i => r <- convert_states vs' sts' ;; Ok (i :: r)
      | Err _ => Err AssertionError
      end
  | _ :: vs', SI _ :: sts' => convert_states vs' sts'
  | _, _ => Ok []
  end.
Definition ints_of (sts : list astate) : list Z :=
  flat_map (fun s => match s with SI z => [z] | SS _ => [] end) sts.

(** cpm.py 522-557 [Cpm.get_prob] *)
Definition get_prob (M : cpm) (variables : varg) (states : list astate) (flag : bool) : res Qc :=
  vs <- resolve M variables ;;
  if (List.length vs =? List.length states)%nat then
    conv <- convert_states vs states ;;
    let row := match conv with [] => ints_of states | _ => conv end in
    Mc <- mk_cpm vs (List.length vs) [row] [0%Qc] ;;
    is <- mt_iscompatible (c_C M) (c_vars M) vs row true ;;
    Ms <- get_subset M (where_ is) flag ;;
    Ok (qsum (c_p Ms))
  else Err AssertionError.

(** cpm.py 585-586: converted only if the first state is a string *)
Definition cond_states (vs : list variable) (sts : list astate) : res (list astate) :=
  match sts with
  | SS _ :: _ => mapM (fun vy => i <- value_index (fst vy) (snd vy) ;; Ok (SI i)) (combine vs sts)
  | _ => Ok sts
  end.

(** cpm.py 610-618: the new code of one conditioned column; a set that is not in
    the table becomes False, stored as 0 *)
Definition cond_code (B : list (list Z)) (x state : Z) : res Z :=
  ex <- py_index B x ;;
  es <- py_index B state ;;
  Ok (match find_idx (set_eqb (inter ex es)) B with Some i => Z.of_nat i | None => 0 end).
Definition set_at (row : list Z) (i : nat) (c : Z) : list Z := firstn i row ++ c :: skipn (S i) row.

Definition cond_column (C : list (list Z)) (Ccond : list (list Z)) (v : variable) (state : astate) (col : nat)
  : res (list (list Z)) :=
  match v_B v with
  | None => Err AttributeError
  | Some B =>
      mapM (fun rr => match state with
                      | SI z => c <- cond_code B (at_ (fst rr) col) z ;; Ok (set_at (snd rr) col c)
                      | SS _ => Err TypeError
                      end) (combine C Ccond)
  end.

(** cpm.py 560-624 [Cpm.condition] *)
Definition condition (M : cpm) (cnd_vars : varg) (cnd_states : list astate) : res cpm :=
  vs <- resolve M cnd_vars ;;
  sts <- cond_states vs cnd_states ;;
  is <- fn_iscompatible (c_C M) (c_vars M) vs sts ;;
  let C := select (c_C M) is in
  let idx_cnd := ismember vs (c_vars M) in
  let free := map (fun o => negb (is_some o)) (ismember (c_vars M) vs) in
  (* conditioned columns start as zero *)
  let Ccond := map (fun row => map (fun fx => if fst fx : bool then snd fx else 0) (combine free row)) C in
  sts' <- get_value sts (map is_some idx_cnd) ;;
  let todo := combine (combine (select vs (map is_some idx_cnd)) sts') (somes idx_cnd) in
  Cnew <- foldM (fun acc t => cond_column C acc (fst (fst t)) (snd (fst t)) (snd t)) todo Ccond ;;
  mk_cpm (c_vars M) (c_nch M) Cnew (match c_p M with [] => [] | _ => select (c_p M) is end).

(** comparison of tuples, [(list(map(tuple, C[:, ::-1])))] *)
Fixpoint lex_ltb (a b : list Z) : bool :=
  match a, b with
  | _, [] => false
  | [], _ :: _ => true
  | x :: a', y :: b' => (x <? y) || ((x =? y) && lex_ltb a' b')
  end.

(** cpm.py 776-792 [Cpm.sort]: rows ascending by their reversed tuples, stable *)
Definition sort_rows {A} (key : A -> list Z) (l : list A) : list A :=
  sort_desc (fun y x => lex_ltb (rev (key y)) (rev (key x))) l.

(** [sorted] on Variables: by name *)
Definition sort_vars (l : list variable) : list variable :=
  sort_desc (fun y x => String.ltb (v_name y) (v_name x)) l.

Definition common_child (M1 M2 : cpm) : bool :=
  existsb (fun v => existsb (v_eqb v) (children M2)) (children M1).

(** cpm.py 660-737 [Cpm.product] once the smaller operand comes first.
    [get_prod] multiplies (it works with logarithms and signs; exact here). *)
Definition product_ord (M1 M2 : cpm) : res cpm :=
  if common_child M1 M2 then Err AssertionError else
  let p1 := match c_p M1, c_p M2 with [], _ :: _ => map (fun _ => 1%Qc) (c_C M1) | p, _ => p end in
  let p2 := match c_p M1, c_p M2 with _ :: _, [] => map (fun _ => 1%Qc) (c_C M2) | _, p => p end in
  match c_C M1, c_vars M1 with
  | [], _ | _, [] => Err UnboundLocalError    (* idx_vars2, line 731 *)
  | _, _ =>
      let com := map is_some (ismember (c_vars M1) (c_vars M2)) in
      let com_vars := select (c_vars M1) com in
      let prod_vars := c_vars M2 ++ select (c_vars M1) (map negb com) in
      let new_child := sort_vars (children M1 ++ children M2) in
      let new_parent := fst (setdiff (parents M1 ++ parents M2) new_child) in
      let new_vars := new_child ++ new_parent in
      let idx2 := somes (ismember new_vars prod_vars) in
      M2' <- mk_cpm (c_vars M2) (c_nch M2) (c_C M2) p2 ;;
      parts <- mapM (fun r1 =>
                 Mc <- condition M2' (Vars com_vars) (map SI (select r1 com)) ;;
                 Ok (map (fun r2 => cols (r2 ++ select r1 (map negb com)) idx2) (c_C Mc), c_p Mc)) (c_C M1) ;;
      match p1 with
      | [] => Err ValueError      (* np.concatenate of nothing, line 727 *)
      | _ =>
          let rows := List.concat (map (fun cp => fst cp) parts) in
          let ps := List.concat (map (fun cpq => map (fun q => (q * snd cpq)%Qc) (snd (fst cpq))) (combine parts p1)) in
          _ <- mk_cpm new_vars (List.length new_child) rows ps ;;
          let sorted := sort_rows fst (combine rows ps) in
          mk_cpm new_vars (List.length new_child) (map fst sorted) (map snd sorted)
      end
  end.

(** cpm.py 649-660: the operand with fewer columns first *)
Definition product (M1 M2 : cpm) : res cpm :=
  if (ncols M2 <? ncols M1)%nat then product_ord M2 M1 else product_ord M1 M2.

(** cpm.py 1085-1102, function [product] on a list *)
Definition product_list (l : list cpm) : res cpm :=
  match l with
  | [] => Err AssertionError
  | M :: l' => foldM product l' M
  end.

(** cpm.py 795-811 [Cpm.get_prob_bnd].  A quotient by zero is inf or nan (None);
    [min(1, inf)] and [min(1, nan)] are both 1. *)
Definition qdiv (a b : Qc) : option Qc := if qc_eqb b 0%Qc then None else Some (a / b)%Qc.
Definition get_prob_bnd (M : cpm) (vs : varg) (sts : list astate) (flag : bool)
    (cvs : varg) (csts : list astate) (cflag : bool) : res (option Qc * Qc) :=
  prob1 <- get_prob M vs sts flag ;;
  let unk := (1 - qsum (c_p M))%Qc in
  match cvs with
  | Names [] | Vars [] => Ok (Some prob1, qmin 1 (prob1 + unk)%Qc)
  | _ =>
      prob2 <- get_prob M cvs csts cflag ;;
      Ok (qdiv prob1 (prob2 + unk)%Qc,
          match qdiv (prob1 + unk)%Qc prob2 with Some x => qmin 1 x | None => 1%Qc end)
  end.

(** operation.py 405-423 [isinscope] for one variable *)
Definition in_scope (v : variable) (M : cpm) : bool := existsb (v_eqb v) (c_vars M).

(** operation.py 426-453 [variable_elim]: the list of CPMs after the loop
    (returned as it is with prod=False) *)
Definition elim_step (cpms : list cpm) (v : variable) : res (list cpm) :=
  mult <- product_list (filter (in_scope v) cpms) ;;
  mult' <- sum mult (Vars [v]) true ;;
  Ok (mult' :: filter (fun M => negb (in_scope v M)) cpms).
Definition variable_elim_list (cpms : list cpm) (vars : list variable) : res (list cpm) :=
  foldM elim_step vars cpms.
Definition variable_elim (cpms : list cpm) (vars : list variable) : res cpm :=
  l <- variable_elim_list cpms vars ;; product_list l.
