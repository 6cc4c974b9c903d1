(** Model of the setters of /repo/BNS_JT/cpm.py used after creation, of a
    one-dimensional [C], and of [Cpm.sort]. *)
From Coq Require Import ZArith List String Bool Arith QArith Qcanon.
From Verif Require Import Py Num Vari Cpm Hybrid.
Import ListNotations.
Open Scope string_scope.
Open Scope Z_scope.
Open Scope list_scope.

(** cpm.py 68-84, [M.C = C] for a two-dimensional array; [p] is not looked at *)
Definition set_C (M : cpm) (C : list (list Z)) : res cpm :=
  _ <- check_C (c_vars M) C ;; Ok (mkCpm (c_vars M) (c_nch M) C (c_p M)).
(** cpm.py 90-103, [M.p = p] *)
Definition set_p (M : cpm) (p : list Qc) : res cpm :=
  _ <- check_p (c_C M) p ;; Ok (mkCpm (c_vars M) (c_nch M) (c_C M) p).

(** cpm.py 69-84 for a one-dimensional [C] (lines 75-76): it becomes one column.  The
    number of variables is not looked at; numpy compares the largest entry with the
    bound of every variable. *)
Definition flat_C (vars : list variable) (C : list Z) : res (list (list Z)) :=
  if forallb (fun v => forallb (fun c => c <=? 2 ^ nvals v - 1) C) vars
  then Ok (map (fun c => [c]) C) else Err AssertionError.
(** cpm.py 36-46 with a one-dimensional [C] *)
Definition mk_flat (vars : list variable) (nch : nat) (C : list Z) (p : list Qc) : res cpm :=
  if (nch <=? List.length vars)%nat then
    C' <- flat_C vars C ;;
    _ <- check_p C' p ;;
    Ok (mkCpm vars nch C' p)
  else Err AssertionError.

(** cpm.py 953-956 [argsort]; Python's [sorted] is stable.  [lt] compares entries. *)
Definition argsort {A} (lt : A -> A -> bool) (l : list A) : list nat :=
  map snd (sort_desc (fun y x => lt (fst y) (fst x)) (combine l (seq 0 (List.length l)))).

(** [x[idx]] of an array *)
Definition take {A} (l : list A) (idx : list nat) : res (list A) := mapM (get_at l) idx.
(** the same if the array has entries *)
Definition take_some {A} (l : list A) (idx : list nat) : res (list A) :=
  match l with [] => Ok [] | _ => take l idx end.

(** cpm.py 776-792 [Cpm.sort].  With sample numbers the order is theirs (line 779), for
    [C] and [p] as well.  [Cs] and [ps] are left as they are. *)
Definition h_sort (M : hcpm) : res hcpm :=
  let c := h_c M in
  let idx := match h_idx M with
             | [] => argsort (fun a b => lex_ltb a b) (map (@rev Z) (c_C c))
             | l => argsort Z.ltb l
             end in
  C <- take (c_C c) idx ;;
  c1 <- set_C c C ;;
  p <- take_some (c_p c) idx ;;
  c2 <- set_p c1 p ;;
  q <- take_some (h_q M) idx ;;
  _ <- check_len (h_Cs M) q ;;
  k <- take_some (h_idx M) idx ;;
  _ <- check_len (h_Cs M) k ;;
  Ok (mkH c2 (h_Cs M) q (h_ps M) k).
