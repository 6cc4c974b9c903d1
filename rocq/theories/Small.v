(** Small functions of utils.py, cpm.py, operation.py, branch.py, variable.py and config.py
    that the rest of the model does without. *)
From Coq Require Import ZArith List String Bool Arith Ascii QArith Qcanon.
From Verif Require Import Py Num Vari Cpm Brc.
Import ListNotations.
Open Scope string_scope.
Open Scope Z_scope.
Open Scope list_scope.

(** utils.py 11-14 [all_equal].  The first [next] gives the first group, a pair, which is
    true; the second skips what equals the key of the first group. *)
Definition all_equal {A} (eqb : A -> A -> bool) (l : list A) : bool :=
  match l with
  | [] => true
  | a :: l' => match filter (fun x => negb (eqb a x)) l' with [] => true | _ => false end
  end.

(** entries of a list of positions or False, as [ismember] returns it; True also occurs *)
Inductive mark : Type := MBool (b : bool) | MInt (n : Z).
Definition marks (l : list (option nat)) : list mark :=
  map (fun o => match o with Some i => MInt (Z.of_nat i) | None => MBool false end) l.
(** cpm.py 1077-1082 [flip]: [x is False] *)
Definition flip (idx : list mark) : list bool :=
  map (fun x => match x with MBool false => true | _ => false end) idx.

(** operation.py 61-77 [get_var_idx] *)
Fixpoint get_var_idx (varis : list variable) (names : list string) : res (list nat) :=
  match names with
  | [] => Ok []
  | v :: rest =>
      match filter (fun ik => String.eqb (v_name (snd ik)) v) (combine (seq 0 (List.length varis)) varis) with
      | [ik] => r <- get_var_idx varis rest ;; Ok (fst ik :: r)
      | _ => Err AssertionError
      end
  end.

(** branch.py 252-257 [Branch.to_dict], [Branch.from_dict]; the values are dictionaries,
    states (None is the unknown state) and numbers.  A vector that is not a dictionary fails
    an assertion (line 40).  States and numbers are not checked: other values for them are
    stored by Python and not modelled (TypeError). *)
Inductive bval : Type := BVec (d : dict Z) | BState (s : st) | BNum (q : Qc).
Definition to_dict (b : branch) : dict bval :=
  [("down", BVec (b_down b)); ("up", BVec (b_up b)); ("down_state", BState (b_down_state b));
   ("up_state", BState (b_up_state b)); ("p", BNum (b_p b))].
Definition from_dict (data : dict bval) : res branch :=
  d <- dget data "down" ;; u <- dget data "up" ;; ds <- dget data "down_state" ;; us <- dget data "up_state" ;;
  p <- dget data "p" ;;
  match d, u, ds, us, p with
  | BVec d, BVec u, BState ds, BState us, BNum p => mk_branch d u ds us p
  | BVec _, BVec _, _, _, _ => Err TypeError
  | _, _, _, _, _ => Err AssertionError
  end.

(** variable.py 250-269 [Variable.get_Bst_from_Bvec] on a three-dimensional array; numpy
    refuses an array without vectors *)
Definition get_Bst_from_Bvec (Bvec : list (list (list Z))) : res (list (list Z)) :=
  match List.concat Bvec with
  | [] => Err ValueError
  | _ => mapM (mapM find_state_from_vector) Bvec
  end.

Section Tables.
Context {V : Type}.
(** config.py 143-155 [convert_csv_to_json]; a row is given by its label and the dictionary
    of its cells.  [template] is changed in place; it is returned as well. *)
Definition dupdate (d row : dict V) : dict V := fold_left (fun d kv => dset d (fst kv) (snd kv)) row d.
Fixpoint convert_csv_to_json (rows : list (string * dict V)) (template : dict V) (data : dict (dict V)) : dict (dict V) * dict V :=
  match rows with
  | [] => (data, template)
  | (k, v) :: rows' =>
      let t := dupdate template v in convert_csv_to_json rows' t (dset data k t)
  end.
End Tables.

(** config.py 158-183 [dict_to_json]: the scenarios that are written.  Their number is that of
    the first entry.  [name i] is 's' and the number i + 1; [out] is a number as pandas
    writes it (ten decimals).  None: an empty dictionary, a StopIteration. *)
Definition dict_to_json (name : nat -> string) (out : Qc -> Qc) (dict_pf : dict (list (list Qc))) : option (res (dict (dict (Qc * Qc)))) :=
  match dict_pf with
  | [] => None
  | (_, first) :: _ =>
      Some (mapM (fun i =>
        l <- mapM (fun kv => match nth_error (snd kv) i with
                             | Some (x :: _) => Ok (fst kv, (out x, out (1 - x)%Qc))
                             | _ => Err IndexError
                             end) dict_pf ;;
        Ok (name i, l)) (seq 0 (List.length first)))
  end.
