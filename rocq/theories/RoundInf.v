(** The operations of cpm.py and operation.py that multiply and add probabilities, with
    computed products and sums.  Everywhere else in this development they are exact; here
    [mul] and [tot] are any functions in their place.  The definitions follow those of
    Cpm.v with the same simplifications; what does no arithmetic is taken from there. *)
From Coq Require Import ZArith List String Bool Arith QArith Qcanon.
From Verif Require Import Py Num Vari Cpm.
Import ListNotations.
Open Scope Z_scope.
Open Scope list_scope.

Section Inf.
(** cpm.py 1105-1121 [get_prod] for two numbers: [sign * exp(log a + log b)] *)
Variable mul : Qc -> Qc -> Qc.
(** [np.sum] of an array (lines 493 and 557); numpy adds in pairs, in an order that depends on the size *)
Variable tot : list Qc -> Qc.

(** cpm.py 486-502, the while loop of [sum] *)
Fixpoint ri_sum_loop (fuel : nat) (M : cpm) : res (list (list Z) * list Qc) :=
  match c_C M, c_vars M with
  | [], _ | _, [] => Ok ([], [])
  | r :: _, _ =>
      match fuel with
      | O => Err OutOfFuel
      | S fuel' =>
          is <- mt_iscompatible (c_C M) (c_vars M) (c_vars M) r false ;;
          M' <- get_subset M (where_ is) false ;;
          '(Cs, ps) <- ri_sum_loop fuel' M' ;;
          Ok (r :: Cs, match c_p M with [] => ps | _ => tot (take_rows (c_p M) (where_ is)) :: ps end)
      end
  end.

(** cpm.py 439-519 [Cpm.sum] *)
Definition ri_sum (M : cpm) (variables : varg) (flag : bool) : res cpm :=
  vs <- resolve M variables ;;
  let '(rem, idx) :=
    if flag then setdiff (children M) vs
    else let i := sort_nat (somes (ismember vs (children M))) in (take_rows (c_vars M) i, i) in
  let no_child := List.length rem in
  let rem' := rem ++ parents M in
  let idx' := idx ++ seq (c_nch M) (ncols M - c_nch M) in
  M1 <- mk_cpm (take_rows (c_vars M) idx') (List.length idx') (map (fun row => cols row idx') (c_C M)) (c_p M) ;;
  '(Cs, ps) <- ri_sum_loop (nrows M1) M1 ;;
  match idx' with
  | [] => Err ValueError
  | _ => mk_cpm rem' no_child Cs ps
  end.

(** cpm.py 522-557 [Cpm.get_prob] *)
Definition ri_get_prob (M : cpm) (variables : varg) (states : list astate) (flag : bool) : res Qc :=
  vs <- resolve M variables ;;
  if (List.length vs =? List.length states)%nat then
    conv <- convert_states vs states ;;
    let row := match conv with [] => ints_of states | _ => conv end in
    Mc <- mk_cpm vs (List.length vs) [row] [0%Qc] ;;
    is <- mt_iscompatible (c_C M) (c_vars M) vs row true ;;
    Ms <- get_subset M (where_ is) flag ;;
    Ok (tot (c_p Ms))
  else Err AssertionError.

(** cpm.py 660-737 [Cpm.product] once the smaller operand comes first *)
Definition ri_product_ord (M1 M2 : cpm) : res cpm :=
  if common_child M1 M2 then Err AssertionError else
  let p1 := match c_p M1, c_p M2 with [], _ :: _ => map (fun _ => 1%Qc) (c_C M1) | p, _ => p end in
  let p2 := match c_p M1, c_p M2 with _ :: _, [] => map (fun _ => 1%Qc) (c_C M2) | _, p => p end in
  match c_C M1, c_vars M1 with
  | [], _ | _, [] => Err UnboundLocalError
  | _, _ =>
      let com := map is_some (ismember (c_vars M1) (c_vars M2)) in
      let com_vars := select (c_vars M1) com in
      let prod_vars := c_vars M2 ++ select (c_vars M1) (map negb com) in
      let new_child := sort_vars (children M1 ++ children M2) in
      let new_parent := fst (setdiff (parents M1 ++ parents M2) new_child) in
      let new_vars := new_child ++ new_parent in
      let idx2 := somes (ismember new_vars prod_vars) in
      M2' <- mk_cpm (c_vars M2) (c_nch M2) (c_C M2) p2 ;;
      parts <- mapM (fun r1 =>
                 Mc <- condition M2' (Vars com_vars) (map SI (select r1 com)) ;;
                 Ok (map (fun r2 => cols (r2 ++ select r1 (map negb com)) idx2) (c_C Mc), c_p Mc)) (c_C M1) ;;
      match p1 with
      | [] => Err ValueError
      | _ =>
          let rows := List.concat (map (fun cp => fst cp) parts) in
          let ps := List.concat (map (fun cpq => map (fun q => mul q (snd cpq)) (snd (fst cpq))) (combine parts p1)) in
          _ <- mk_cpm new_vars (List.length new_child) rows ps ;;
          let sorted := sort_rows fst (combine rows ps) in
          mk_cpm new_vars (List.length new_child) (map fst sorted) (map snd sorted)
      end
  end.

(** cpm.py 649-660 *)
Definition ri_product (M1 M2 : cpm) : res cpm :=
  if (ncols M2 <? ncols M1)%nat then ri_product_ord M2 M1 else ri_product_ord M1 M2.

(** cpm.py 1085-1102, function [product] on a list *)
Definition ri_product_list (l : list cpm) : res cpm :=
  match l with
  | [] => Err AssertionError
  | M :: l' => foldM ri_product l' M
  end.

(** operation.py 426-453 [variable_elim] *)
Definition ri_elim_step (cpms : list cpm) (v : variable) : res (list cpm) :=
  mult <- ri_product_list (filter (in_scope v) cpms) ;;
  mult' <- ri_sum mult (Vars [v]) true ;;
  Ok (mult' :: filter (fun M => negb (in_scope v M)) cpms).
Definition ri_variable_elim (cpms : list cpm) (vars : list variable) : res cpm :=
  l <- foldM ri_elim_step vars cpms ;; ri_product_list l.

(** operation.py 426-453 and cpm.py 522-557: the query of the examples, elimination and then
    the probability of states *)
Definition ri_query (cpms : list cpm) (vars : list variable) (vs : varg) (sts : list astate) (flag : bool) : res Qc :=
  M <- ri_variable_elim cpms vars ;; ri_get_prob M vs sts flag.
End Inf.
