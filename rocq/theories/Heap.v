(** CPM objects that share arrays: which operations of cpm.py change the objects
    they are given.  An object has its own fields [variables], [no_child] and [C];
    the array [p] is shared by reference.  (No operation writes into [C] or into
    the list of variables in place; sampled parts are empty.) *)
From Coq Require Import ZArith List String Bool QArith Qcanon.
From Verif Require Import Py Num Vari Cpm.
Import ListNotations.
Open Scope string_scope.
Open Scope Z_scope.
Open Scope list_scope.

Record obj : Type := mkObj { o_vars : list variable; o_nch : nat; o_C : list (list Z); o_arr : nat }.
Record store : Type := mkStore { s_objs : list obj; s_arrs : list (list Qc) }.

(** an object as it looks now *)
Definition view_obj (arrs : list (list Qc)) (o : obj) : cpm := mkCpm (o_vars o) (o_nch o) (o_C o) (nth (o_arr o) arrs []).
Definition load (s : store) (i : nat) : option cpm := option_map (view_obj (s_arrs s)) (nth_error (s_objs s) i).
(** a new object with a new array *)
Definition alloc (s : store) (M : cpm) : store :=
  mkStore (s_objs s ++ [mkObj (c_vars M) (c_nch M) (c_C M) (List.length (s_arrs s))]) (s_arrs s ++ [c_p M]).
(** replace entry [i] of a list *)
Definition put {A} (l : list A) (i : nat) (x : A) : list A := firstn i l ++ x :: skipn (S i) l.
(** [M.p = np.ones(...)]: object [i] gets a new array *)
Definition rebind (s : store) (i : nat) (p : list Qc) : store :=
  match nth_error (s_objs s) i with
  | Some o => mkStore (put (s_objs s) i (mkObj (o_vars o) (o_nch o) (o_C o) (List.length (s_arrs s)))) (s_arrs s ++ [p])
  | None => s
  end.

(** cpm.py 424-431: the loop of [merge] writes into the array [a] *)
Fixpoint merge_loop (s : store) (a : nat) (C : list (list Z)) (rows : list (list Z * Qc)) : store * res unit :=
  match rows with
  | [] => (s, Ok tt)
  | (cx, px) :: rest =>
      match find_idx (row_eqb cx) C with
      | None => (s, Err ValueError)
      | Some k =>
          match nth a (s_arrs s) [] with
          | [] => (s, Err AssertionError)
          | p => merge_loop (mkStore (s_objs s) (put (s_arrs s) a (add_at p k px))) a C rest
          end
      end
  end.

(** cpm.py 415-436 [Cpm.merge]: [copy.copy] makes a new object with the same array.
    [NameError] stands for a variable of the program that is not defined. *)
Definition merge_h (s : store) (i j : nat) : store * res unit :=
  match nth_error (s_objs s) i, load s i, load s j with
  | Some o, Some M1, Some M2 =>
      if (List.length (c_vars M1) =? List.length (c_vars M2))%nat &&
         forallb (fun ab => v_eqb (fst ab) (snd ab)) (combine (c_vars M1) (c_vars M2)) then
        match merge_loop s (o_arr o) (c_C M1) (combine (c_C M2) (c_p M2)) with
        | (s1, Ok _) => (mkStore (s_objs s1 ++ [o]) (s_arrs s1), Ok tt)
        | (s1, Err e) => (s1, Err e)
        end
      else (s, Err AssertionError)
  | _, _, _ => (s, Err NameError)
  end.

(** cpm.py 660-737 [Cpm.product], smaller operand first; lines 667-673 give an
    operand without probabilities an array of ones *)
Definition product_ord_h (s : store) (i j : nat) (M1 M2 : cpm) : store * res unit :=
  if common_child M1 M2 then (s, Err AssertionError) else
  let s1 := match c_p M1, c_p M2 with
            | [], _ :: _ => rebind s i (map (fun _ => 1%Qc) (c_C M1))
            | _ :: _, [] => rebind s j (map (fun _ => 1%Qc) (c_C M2))
            | _, _ => s
            end in
  match product_ord M1 M2 with Ok M => (alloc s1 M, Ok tt) | Err e => (s1, Err e) end.
(** cpm.py 649-660 *)
Definition product_h (s : store) (i j : nat) : store * res unit :=
  match load s i, load s j with
  | Some M1, Some M2 => if (ncols M2 <? ncols M1)%nat then product_ord_h s j i M2 M1 else product_ord_h s i j M1 M2
  | _, _ => (s, Err NameError)
  end.

(** [condition] works on a deep copy (cpm.py 588), [sum] and [get_subset] index
    with lists, which copies (cpm.py 224-237, 472-506) *)
Definition fresh_h (s : store) (i : nat) (f : cpm -> res cpm) : store * res unit :=
  match load s i with
  | Some M => match f M with Ok M' => (alloc s M', Ok tt) | Err e => (s, Err e) end
  | None => (s, Err NameError)
  end.

(** programs: every statement makes the next object; the operands are numbers of
    objects *)
Inductive op : Type :=
| Product (i j : nat) | Merge (i j : nat) | Condition (i : nat) (vs : varg) (sts : list astate)
| Sum (i : nat) (vs : varg) (flag : bool) | Subset (i : nat) (rows : list nat) (flag : bool).
Definition step_h (s : store) (o : op) : store * res unit :=
  match o with
  | Product i j => product_h s i j
  | Merge i j => merge_h s i j
  | Condition i vs sts => fresh_h s i (fun M => condition M vs sts)
  | Sum i vs flag => fresh_h s i (fun M => sum M vs flag)
  | Subset i rows flag => fresh_h s i (fun M => get_subset M rows flag)
  end.
(** an exception ends the program, the objects stay as they are *)
Fixpoint run_h (s : store) (ops : list op) : store * res unit :=
  match ops with
  | [] => (s, Ok tt)
  | o :: rest => match step_h s o with (s1, Ok _) => run_h s1 rest | (s1, Err e) => (s1, Err e) end
  end.

(** the objects of a list of CPMs, with an array each *)
Definition store_of (l : list cpm) : store := fold_left alloc l (mkStore [] []).
