(** Python values used by the model: exceptions as values, dictionaries,
    list indexing, stable sorting.  No function of /repo is modelled here. *)
From Coq Require Import ZArith List String Bool.
Import ListNotations.
Open Scope Z_scope.

(** Exception classes that the modelled code can raise.  [OutOfFuel] is not a
    Python exception: it marks a loop whose fuel ran out, and theorems show
    that it never occurs. *)
Inductive exn : Set :=
| KeyError | ValueError | IndexError | TypeError | AttributeError
| AssertionError | NameError | UnboundLocalError
| NetworkXError | NodeNotFound | NetworkXNoPath | ZeroDivisionError | FileNotFoundError | OutOfFuel.

Inductive res (A : Type) : Type :=
| Ok (a : A)
| Err (e : exn).
Arguments Ok {A} a.
Arguments Err {A} e.

Definition bind {A B} (x : res A) (f : A -> res B) : res B :=
  match x with Ok a => f a | Err e => Err e end.

Declare Scope py_scope.
Notation "x <- e ;; f" := (bind e (fun x => f))
  (at level 61, e at next level, right associativity) : py_scope.
Notation "' p <- e ;; f" := (bind e (fun p => f))
  (at level 61, p pattern, e at next level, right associativity) : py_scope.
Delimit Scope py_scope with py.
Open Scope py_scope.

Definition is_ok {A} (x : res A) : bool :=
  match x with Ok _ => true | Err _ => false end.

(** list comprehension whose body may raise *)
Fixpoint mapM {A B} (f : A -> res B) (l : list A) : res (list B) :=
  match l with
  | [] => Ok []
  | a :: l' => b <- f a ;; bs <- mapM f l' ;; Ok (b :: bs)
  end.

(** a for loop with an accumulator *)
Fixpoint foldM {A B} (f : B -> A -> res B) (l : list A) (b : B) : res B :=
  match l with
  | [] => Ok b
  | a :: l' => b' <- f b a ;; foldM f l' b'
  end.

(** [all([f(x) for x in l])]: the whole list is built before [all] looks at it *)
Definition allM {A} (f : A -> res bool) (l : list A) : res bool :=
  bs <- mapM f l ;; Ok (forallb (fun b => b) bs).

(** [x in l] *)
Definition mem_str (x : string) (l : list string) : bool := existsb (String.eqb x) l.
Definition mem_Z (x : Z) (l : list Z) : bool := existsb (Z.eqb x) l.

(** [l[i]]: negative indices count from the end *)
Definition py_index {A} (l : list A) (i : Z) : res A :=
  let n := Z.of_nat (List.length l) in
  let j := if i <? 0 then i + n else i in
  if (0 <=? j) && (j <? n) then
    match nth_error l (Z.to_nat j) with Some a => Ok a | None => Err IndexError end
  else Err IndexError.

(** [l.index(x)] for a decidable equality [eqb]: position of the first match *)
Fixpoint find_idx {A} (f : A -> bool) (l : list A) : option nat :=
  match l with
  | [] => None
  | a :: l' => if f a then Some O
               else match find_idx f l' with Some i => Some (S i) | None => None end
  end.

Definition py_list_index {A} (f : A -> bool) (l : list A) : res Z :=
  match find_idx f l with Some i => Ok (Z.of_nat i) | None => Err ValueError end.

(** [range(a, b)] *)
Definition zrange (a b : Z) : list Z :=
  map (fun i => a + Z.of_nat i) (seq 0 (Z.to_nat (b - a))).

(** Dictionaries: association lists in insertion order. *)
Definition dict (A : Type) := list (string * A).

Fixpoint dfind {A} (d : dict A) (k : string) : option A :=
  match d with
  | [] => None
  | (k', a) :: d' => if String.eqb k k' then Some a else dfind d' k
  end.

Definition dget {A} (d : dict A) (k : string) : res A :=
  match dfind d k with Some a => Ok a | None => Err KeyError end.

Definition dmem {A} (d : dict A) (k : string) : bool :=
  match dfind d k with Some _ => true | None => false end.

Fixpoint dset {A} (d : dict A) (k : string) (a : A) : dict A :=
  match d with
  | [] => [(k, a)]
  | (k', a') :: d' => if String.eqb k k' then (k', a) :: d' else (k', a') :: dset d' k a
  end.

Definition keys {A} (d : dict A) : list string := map fst d.

(** [d1 == d2] for dictionaries of ints: same keys, same values, any order *)
Definition dict_eqb (d1 d2 : dict Z) : bool :=
  (List.length d1 =? List.length d2)%nat &&
  forallb (fun kv => match dfind d2 (fst kv) with
                     | Some v => Z.eqb v (snd kv) | None => false end) d1.

(** [l.remove(x)]: removes the first element equal to [x] *)
Fixpoint remove_first {A} (f : A -> bool) (l : list A) : list A :=
  match l with
  | [] => []
  | a :: l' => if f a then l' else a :: remove_first f l'
  end.

(** Stable sort in descending order of a key ([sorted(..., reverse=True)]).
    [gtb y x] means key y > key x: only then may a later [y] overtake [x]. *)
Fixpoint insert_desc {A} (gtb : A -> A -> bool) (x : A) (l : list A) : list A :=
  match l with
  | [] => [x]
  | y :: l' => if gtb y x then y :: insert_desc gtb x l' else x :: y :: l'
  end.

Definition sort_desc {A} (gtb : A -> A -> bool) (l : list A) : list A :=
  fold_right (insert_desc gtb) [] l.

(** Stable ascending sort is the same function with the order reversed:
    [sort_desc ltb] puts smaller keys first. *)
