(** Specification vocabulary for system nodes that take the largest or smallest value
    of their parents. *)
From Coq Require Import ZArith List String Bool QArith Qcanon.
From Verif Require Import Py Num Vari Cpm SpecCpm.
Import ListNotations.
Open Scope string_scope.
Open Scope Z_scope.
Open Scope list_scope.

(** order of values: numbers and [inf], or strings *)
Definition vle (a b : value) : Prop :=
  match a, b with
  | VNum x, VNum y => (x <= y)%Qc
  | VNum _, VInf => True
  | VInf, VInf => True
  | VStr s, VStr t => s = t \/ String.compare s t = Lt
  | _, _ => False
  end.

(** the value of [p] in the joint state [a] *)
Definition value_at (a : joint) (p : variable) : option value := nth_error (v_values p) (Z.to_nat (a (v_name p))).

(** [a] gives each variable one of its states *)
Definition states_in (vars : list variable) (a : joint) : Prop :=
  forall p, In p vars -> 0 <= a (v_name p) < nvals p.

Definition largest (vars : list variable) (a : joint) (m : value) : Prop :=
  (exists p, In p vars /\ value_at a p = Some m) /\
  forall p v, In p vars -> value_at a p = Some v -> vle v m.
Definition smallest (vars : list variable) (a : joint) (m : value) : Prop :=
  (exists p, In p vars /\ value_at a p = Some m) /\
  forall p v, In p vars -> value_at a p = Some v -> vle m v.

(** parents as made by [Variable(name, values)] with stored table: different names,
    at least one value each, no value twice, all values comparable *)
Definition kind (v : value) : bool := match v with VStr _ => true | _ => false end.
Definition parents_ok (vars : list variable) : Prop :=
  vars <> [] /\ NoDup (names vars) /\
  (forall p, In p vars -> v_B p = Some (gen_B (List.length (v_values p))) /\ v_values p <> [] /\ NoDup (v_values p)) /\
  (forall p q v w, In p vars -> In q vars -> In v (v_values p) -> In w (v_values q) -> kind v = kind w).

Definition min_of (l : list value) (m : value) : Prop := In m l /\ forall v, In v l -> vle m v.
Definition max_of (l : list value) (m : value) : Prop := In m l /\ forall v, In v l -> vle v m.
Definition vlt (a b : value) : Prop := vle a b /\ a <> b.

(** ascending without repetition *)
Fixpoint ascending (l : list value) : Prop :=
  match l with [] => True | v :: l' => (forall w, In w l' -> vlt v w) /\ ascending l' end.

(** [p] is the parent with the least key (minimum or maximum of its values), the first
    of these in the list *)
Definition first_by (key : list value -> value -> Prop) (vars : list variable) (p : variable) : Prop :=
  exists l1 l2, vars = l1 ++ p :: l2 /\
    (forall q m mq, In q l1 -> key (v_values p) m -> key (v_values q) mq -> vlt m mq) /\
    (forall q m mq, In q l2 -> key (v_values p) m -> key (v_values q) mq -> vle m mq).
