(** Model of /repo/BNS_JT/variable.py. *)
From Coq Require Import ZArith List String Bool Arith QArith Qcanon.
From Verif Require Import Py Num.
Import ListNotations.
Open Scope string_scope.
Open Scope Z_scope.
Open Scope list_scope.

(** Entries of [Variable.values] are arbitrary Python objects; the code only
    compares numbers (including [inf]) and strings. *)
Inductive value : Type :=
| VNum (q : Qc)
| VInf
| VStr (s : string).

(** variable.py 118: B_flag is None, 'store' or 'fly' ([None] is [option] None) *)
Inductive bflag : Set := FStore | FFly.

(** variable.py 64-88.  A Python set of ints is a list of ints without
    duplicates; order is irrelevant (see [set_eqb]). *)
Record variable : Type := mkVar {
  v_name : string;
  v_values : list value;
  v_B : option (list (list Z));
  v_flag : option bflag
}.

Definition nvals (v : variable) : Z := Z.of_nat (List.length (v_values v)).

(** Python set equality *)
Definition set_eqb (a b : list Z) : bool :=
  forallb (fun x => mem_Z x b) a && forallb (fun x => mem_Z x a) b.

(** Python tuple equality *)
Fixpoint tuple_eqb (a b : list Z) : bool :=
  match a, b with
  | [], [] => true
  | x :: a', y :: b' => (x =? y) && tuple_eqb a' b'
  | _, _ => false
  end.

(** itertools.combinations(l, r): in lexicographic order of positions *)
Fixpoint combinations {A} (l : list A) (r : nat) : list (list A) :=
  match l, r with
  | _, O => [[]]
  | [], S _ => []
  | a :: l', S r' => map (cons a) (combinations l' r') ++ combinations l' (S r')
  end.

(** variable.py 121-126 [gen_B] *)
Definition gen_B (n : nat) : list (list Z) :=
  flat_map (combinations (zrange 0 (Z.of_nat n))) (seq 1 n).

(** condition of variable.py 87 and 276 *)
Definition stores_B (n : nat) (flag : option bflag) : bool :=
  (0 <? n)%nat &&
  (((n <=? 6)%nat && negb (match flag with Some FFly => true | _ => false end))
   || (match flag with Some FStore => true | _ => false end)).

(** variable.py 76-88 [Variable.__init__]; the type assertions always hold for
    well-typed arguments. *)
Definition mk_variable (name : string) (values : list value) (flag : option bflag) : variable :=
  mkVar name values
        (if stores_B (List.length values) flag then Some (gen_B (List.length values)) else None)
        flag.

(** variable.py 272-279 [update_B]: [val] is falsy when absent or empty *)
Definition update_B (v : variable) (val : option (list (list Z))) : variable :=
  match val with
  | Some (b :: bs) => mkVar (v_name v) (v_values v) (Some (b :: bs)) (v_flag v)
  | _ => mkVar (v_name v) (v_values v)
               (if stores_B (List.length (v_values v)) (v_flag v)
                then Some (gen_B (List.length (v_values v))) else None) (v_flag v)
  end.

(** [sorted(set)] *)
Definition sort_Z (l : list Z) : list Z := sort_desc Z.ltb l.

(** variable.py 144-166: number of sets with fewer elements, plus the position
    in the group of sets with the same number of elements *)
Definition group_offset (n k : nat) : Z :=
  fold_left (fun acc j => acc + Z.of_nat (List.length (combinations (zrange 0 (Z.of_nat n)) j)))
            (seq 1 (k - 1)) 0.

Definition state_fly (n : nat) (s : list Z) : res Z :=
  let num := List.length s in
  let group := combinations (zrange 0 (Z.of_nat n)) num in
  i <- py_list_index (tuple_eqb (sort_Z s)) group ;;
  Ok (group_offset n num + i).

(** variable.py 128-168 [Variable.get_state] *)
Definition v_get_state (v : variable) (s : list Z) : res Z :=
  match v_B v with
  | Some B => py_list_index (set_eqb s) B
  | None => state_fly (List.length (v_values v)) s
  end.

(** variable.py 188-210: the loop over group sizes [ks] *)
Fixpoint set_fly_loop (n : nat) (state current : Z) (ks : list nat) : res (list Z) :=
  match ks with
  | [] => Err IndexError
  | k :: ks' =>
      let group := combinations (zrange 0 (Z.of_nat n)) k in
      let count := Z.of_nat (List.length group) in
      if state <? current + count then py_index group (state - current)
      else set_fly_loop n state (current + count) ks'
  end.

(** variable.py 170-210 [Variable.get_set] *)
Definition v_get_set (v : variable) (state : Z) : res (list Z) :=
  match v_B v with
  | Some B => py_index B state
  | None => let n := List.length (v_values v) in set_fly_loop n state 0 (seq 1 n)
  end.

Definition zsum (l : list Z) : Z := fold_right Z.add 0 l.

(** positions of the ones, variable.py 239 *)
Definition one_positions (vec : list Z) : list Z :=
  map fst (filter (fun iv => snd iv =? 1)
                  (combine (zrange 0 (Z.of_nat (List.length vec))) vec)).

(** variable.py 213-248 [Variable.find_state_from_vector].  [range(1, num_ones)]
    and [combinations(_, num_ones)] raise ValueError for a negative [r]; the
    model is for vectors whose sum is not negative (0/1 vectors). *)
Definition find_state_from_vector (vec : list Z) : res Z :=
  let n := List.length vec in
  let num := zsum vec in
  if num =? 0 then Ok (-1) else
  if num <? 0 then Err ValueError else
  let group := combinations (zrange 0 (Z.of_nat n)) (Z.to_nat num) in
  i <- py_list_index (tuple_eqb (one_positions vec)) group ;;
  Ok (group_offset n (Z.to_nat num) + i).

(** [set(states)] for a list of ints: keep the first of equal entries *)
Fixpoint py_set (l : list Z) : list Z :=
  match l with
  | [] => []
  | a :: l' => a :: filter (fun b => negb (b =? a)) (py_set l')
  end.

(** variable.py 320-338 [get_composite_state]; [x in None] is a TypeError.  The
    Python function updates [vari] in place and returns it; the model returns
    the updated variable. *)
Definition get_composite_state (v : variable) (states : list Z) : res (variable * Z) :=
  match v_B v with
  | None => Err TypeError
  | Some B =>
      let added := py_set states in
      let B' := if existsb (set_eqb added) B then B else B ++ [added] in
      c <- py_list_index (set_eqb added) B' ;;
      Ok (mkVar (v_name v) (v_values v) (Some B') (v_flag v), c)
  end.
