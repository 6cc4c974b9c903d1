(** Model of the network traversals of /repo/BNS_JT/operation.py. *)
From Coq Require Import ZArith List String Bool Arith QArith Qcanon.
From Verif Require Import Py Num Vari Cpm.
Import ListNotations.
Open Scope string_scope.
Open Scope Z_scope.
Open Scope list_scope.

(** operation.py 685-687: the loop over the scope of one variable *)
Definition queue_scope (inf cp scope : list string) : list string :=
  fold_left (fun cp p => if negb (mem_str p inf) && negb (mem_str p cp) then cp ++ [p] else cp) scope cp.

(** operation.py 678-687, the while loop.  [varis_cp.remove(v)] for the first
    entry [v] drops that entry. *)
Fixpoint inf_loop (fuel : nat) (cpms : dict cpm) (inf cp : list string) : res (list string) :=
  match cp with
  | [] => Ok inf
  | v :: cp' =>
      match fuel with
      | O => Err OutOfFuel
      | S fuel' =>
          M <- dget cpms v ;;
          inf_loop fuel' cpms (inf ++ [v]) (queue_scope (inf ++ [v]) cp' (names (parents M)))
      end
  end.

(** a bound on the number of passes of that loop; [C36_terminates] shows that it is enough *)
Definition inf_fuel (cpms : dict cpm) (varis : list string) : nat :=
  List.length varis + List.length (List.concat (map (fun kM => names (parents (snd kM))) cpms)).

(** operation.py 668-672 [get_ord_inf] *)
Definition ord_inf (alist : list string) (x : string) : nat :=
  match find_idx (String.eqb x) alist with Some i => i | None => List.length alist end.

(** operation.py 657-692 [get_inf_vars]; [cpms] is a dict keyed by variable name
    (the docstring says list, but [cpms[v]] needs names); a single name is the
    list with that name; the sort is stable *)
Definition get_inf_vars (cpms : dict cpm) (varis : list string) (ve_ord : option (list string)) : res (list string) :=
  out <- inf_loop (inf_fuel cpms varis) cpms [] varis ;;
  match ve_ord with
  | None => Ok out
  | Some o => Ok (sort_desc (fun y x => (ord_inf o y <? ord_inf o x)%nat) out)
  end.

(** operation.py 80-108 [get_prod_idx]: the first CPM all of whose parents are in
    [varis]; None when there is none (the IndexError is caught and a message printed) *)
Definition get_prod_idx (cpms : list cpm) (varis : list variable) : option nat :=
  find_idx (fun M => forallb (fun p => existsb (v_eqb p) varis) (parents M)) cpms.

(** [l.pop(i)] for a valid index *)
Fixpoint pop_at {A} (i : nat) (l : list A) : list A :=
  match l, i with
  | [], _ => []
  | _ :: l', O => l'
  | a :: l', S i' => a :: pop_at i' l'
  end.

(** the lists that the loop of [get_sample_order] updates: [cpms_] with [cpms_idx],
    [sample_order], [sample_vars], [var_add_order] *)
Record sample_st : Type := mkSS {
  s_rest : list (nat * cpm);
  s_order : list nat;
  s_vars : list variable;
  s_add : list nat
}.

(** operation.py 124-148, one pass; a common child only prints a message and
    leaves [sample_vars] as it is, but [var_add_order] still grows *)
Definition sample_pass (s : sample_st) (i : nat) : sample_st :=
  match get_prod_idx (map snd (s_rest s)) (s_vars s) with
  | None => s
  | Some k =>
      match nth_error (s_rest s) k with
      | None => s   (* cannot happen: the index is in range *)
      | Some (j, M) =>
          let vs := children M in
          mkSS (pop_at k (s_rest s)) (s_order s ++ [j])
               (if existsb (fun v => existsb (v_eqb v) vs) (s_vars s) then s_vars s else s_vars s ++ vs)
               (s_add s ++ map (fun _ => i) vs)
      end
  end.

(** operation.py 111-150 [get_sample_order].  [copy.deepcopy] has no effect (equality
    of Variables is by name); [var_add_order] holds floats in Python, equal to these
    numbers *)
Definition get_sample_order (cpms : list cpm) : list nat * list variable * list nat :=
  let n := List.length cpms in
  let s := fold_left sample_pass (seq 0 n) (mkSS (combine (seq 0 n) cpms) [] [] []) in
  (s_order s, s_vars s, s_add s).
