(** Model of the two places that multiply by adding logarithms, over the real numbers:
    cpm.py 1105-1122 [get_prod] and operation.py 231-254 (the probability of [single_sample]).
    numpy's [log(0)] is -inf. *)
From Coq Require Import List Arith Reals.
From Verif Require Import Py.
Import ListNotations.
Open Scope R_scope.

(** values of [np.log] at numbers from 0 on *)
Inductive ext : Type := NegInf | Fin (x : R).
Definition np_log (x : R) : ext := if Req_EM_T x 0 then NegInf else Fin (ln x).
Definition ext_add (a b : ext) : ext := match a, b with Fin x, Fin y => Fin (x + y) | _, _ => NegInf end.
Definition np_exp (a : ext) : R := match a with NegInf => 0 | Fin x => exp x end.
Definition np_sign (x : R) : R := if Rlt_dec x 0 then -1 else if Rlt_dec 0 x then 1 else 0.

(** arrays: the first operand has one or two dimensions, the second none or one (as in all
    calls, cpm.py 721, 761, 762).  [Two m rows]: all rows have [m] entries. *)
Inductive left_arr : Type := One (l : list R) | Two (m : nat) (rows : list (list R)).
Inductive right_arr : Type := Scal (b : R) | Vec (l : list R).
(** cpm.py 1110-1114 *)
Definition left_rows (A : left_arr) : nat * list (list R) :=
  match A with One l => (1%nat, map (fun x => [x]) l) | Two m rows => (m, rows) end.
Definition right_vec (B : right_arr) : list R := match B with Scal b => [b] | Vec l => l end.
(** cpm.py 1118-1121, one entry *)
Definition prod_entry (a b : R) : R :=
  np_sign (a * b) * np_exp (ext_add (np_log (Rabs a)) (np_log (Rabs b))).
(** cpm.py 1105-1122 [get_prod] *)
Definition get_prod (A : left_arr) (B : right_arr) : res (list (list R)) :=
  if Nat.eqb (fst (left_rows A)) (List.length (right_vec B)) then
    Ok (map (fun row => map (fun ab => prod_entry (fst ab) (snd ab)) (combine row (right_vec B))) (snd (left_rows A)))
  else Err AssertionError.

(** operation.py 231-254: the probability of a sample from the probabilities [ps] of its rows.
    Reading the unbound [sample_prob] is a NameError, which makes the first assignment; without
    any CPM there is no probability. *)
Definition prob_scalar (ps : list R) : option R :=
  match ps with
  | [] => None
  | p :: rest => Some (np_exp (fold_left (fun acc p => ext_add acc (np_log p)) rest (np_log p)))
  end.
Definition prob_vector (ps : list R) : option (list R) :=
  match ps with
  | [] => None
  | _ => Some (map (fun p => np_exp (np_log p)) ps)
  end.
