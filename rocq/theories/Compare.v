(** Model of the comparisons of variables and branches in /repo/BNS_JT/variable.py and branch.py. *)
From Coq Require Import ZArith List String Bool QArith Qcanon.
From Verif Require Import Py Num Vari Brc.
Import ListNotations.
Open Scope string_scope.
Open Scope Z_scope.
Open Scope list_scope.

(** objects that are compared; numbers stand for anything that is neither string, variable nor branch and whose class
    answers [NotImplemented] to these *)
Inductive obj : Type :=
| OVar (v : variable)
| OStr (s : string)
| OBr (b : branch)
| ONum (q : Qc).

(** what a comparison returns *)
Inductive pv : Type :=
| PBool (b : bool)
| PNone.
Definition true_in_if (x : pv) : bool := match x with PBool b => b | PNone => false end.

(** branch.py 62-69 [Branch.__eq__]: without a final return, None for other classes.  [b_p] and the states are always
    there (None and nan are not modelled); dictionaries are compared without regard to their order. *)
Definition branch_eq (b : branch) (o : obj) : pv :=
  match o with
  | OBr c => PBool (forallb (fun x => x)
      [dict_eqb (b_down b) (b_down c); dict_eqb (b_up b) (b_up c);
       st_eqb (b_down_state b) (b_down_state c); st_eqb (b_up_state b) (b_up_state c); qc_eqb (b_p b) (b_p c)])
  | _ => PNone
  end.

(** Python's [==] between a string and an object: other classes are asked in turn *)
Definition str_eq (s : string) (o : obj) : pv :=
  match o with
  | OStr t => PBool (String.eqb s t)
  | OVar v => PBool (String.eqb (v_name v) s)
  | OBr b => branch_eq b (OStr s)
  | ONum _ => PBool false
  end.

(** variable.py 309-314 [Variable.__eq__]: only variables have an attribute [name] *)
Definition var_eq (v : variable) (o : obj) : pv :=
  match o with
  | OVar w => PBool (String.eqb (v_name v) (v_name w))
  | _ => str_eq (v_name v) o
  end.

(** [a == b]: the left class first, the right one if that gives NotImplemented *)
Definition py_eq (a b : obj) : pv :=
  match a with
  | OVar v => var_eq v b
  | OStr s => str_eq s b
  | OBr c => branch_eq c b
  | ONum q =>
      match b with
      | ONum r => PBool (qc_eqb q r)
      | OStr _ => PBool false
      | OVar v => var_eq v a
      | OBr c => branch_eq c a
      end
  end.

(** [a != b]: the classes have no [__ne__], Python negates what [__eq__] gives *)
Definition py_ne (a b : obj) : bool := negb (true_in_if (py_eq a b)).

(** variable.py 301-303 [Variable.__hash__]; a class with [__eq__] and without [__hash__] (Branch) has none.  The
    hashes of strings and numbers are parameters. *)
Definition py_hash (hs : string -> Z) (hn : Qc -> Z) (o : obj) : res Z :=
  match o with
  | OVar v => Ok (hs (v_name v))
  | OStr s => Ok (hs s)
  | OBr _ => Err TypeError
  | ONum q => Ok (hn q)
  end.

(** variable.py 305-307 [Variable.__lt__] *)
Definition var_lt (v : variable) (o : obj) : res bool :=
  match o with
  | OVar w => Ok (String.ltb (v_name v) (v_name w))
  | _ => Err AttributeError
  end.

(** [x in l] for a list (identical objects are equal here) *)
Definition py_in (x : obj) (l : list obj) : bool := existsb (fun e => true_in_if (py_eq e x)) l.

(** [d.get(x)] for a dictionary: the entry with the same hash whose key is equal *)
Definition hash_get {A} (hs : string -> Z) (hn : Qc -> Z) (d : list (obj * A)) (x : obj) : res (option A) :=
  h <- py_hash hs hn x ;;
  foldM (fun (found : option A) (e : obj * A) =>
    match found with
    | Some a => Ok (Some a)
    | None => k <- py_hash hs hn (fst e) ;; Ok (if (k =? h) && true_in_if (py_eq (fst e) x) then Some (snd e) else None)
    end) d None.
