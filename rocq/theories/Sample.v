(** Model of the sampling functions of /repo/BNS_JT/operation.py.  A random draw is
    the exact distribution of its outcomes: a list of (probability, outcome). *)
From Coq Require Import ZArith List String Bool Arith QArith Qcanon.
From Verif Require Import Py Num Vari Cpm Net.
Import ListNotations.
Open Scope string_scope.
Open Scope Z_scope.
Open Scope list_scope.

(** [sample[mask] = vals] once numpy has accepted the shapes *)
Fixpoint fill_mask (mask : list bool) (vals sample : list Z) : list Z :=
  match mask, sample with
  | true :: mask', _ :: sample' =>
      match vals with
      | x :: vals' => x :: fill_mask mask' vals' sample'
      | [] => sample
      end
  | false :: mask', y :: sample' => y :: fill_mask mask' vals sample'
  | _, _ => sample
  end.

(** [sample[var_add_order == i] = idx], operation.py 245: a mask of another length is
    an IndexError; one value is repeated for all places; any other number of values
    than places is a ValueError *)
Definition put_mask (mask : list bool) (vals sample : list Z) : res (list Z) :=
  if negb (List.length mask =? List.length sample)%nat then Err IndexError else
  let n := List.length (filter (fun b => b) mask) in
  if (List.length vals =? n)%nat then Ok (fill_mask mask vals sample) else
  match vals with
  | [x] => Ok (fill_mask mask (repeat x n) sample)
  | _ => Err ValueError
  end.

(** operation.py 219-223: condition on the variables sampled so far, that is on those
    whose entry is above 0 *)
Definition sampled (vars : list variable) (sample : list Z) : list (variable * Z) :=
  filter (fun vs => 0 <? snd vs) (combine vars sample).
Definition cond_sampled (M : cpm) (vars : list variable) (sample : list Z) : res cpm :=
  condition M (Vars (map fst (sampled vars sample)))
            (map SI (filter (fun s => 0 <? s) sample)).

(** operation.py 228: the weights [M.p / M.p.sum()]; numpy's [choice] raises ValueError
    when there are none, when they are NaN (sum 0) or negative *)
Definition draw (M : cpm) : res (list (Qc * (list Z * Qc))) :=
  let t := qsum (c_p M) in
  if negb (List.length (c_p M) =? List.length (c_C M))%nat then Err ValueError else
  match c_p M with
  | [] => Err ValueError
  | _ =>
      if qc_eqb t 0%Qc then Err ValueError
      else if forallb (fun x => qc_leb 0%Qc (x / t)%Qc) (c_p M)
      then Ok (map (fun rp => ((snd rp / t)%Qc, rp)) (filter (fun rp => negb (qc_eqb (snd rp) 0%Qc)) (combine (c_C M) (c_p M))))
      else Err ValueError
  end.

(** operation.py 216-245, the loop of [single_sample] from CPM number [i] on.  An
    outcome is the sample with the list of the factors [M.p[irow]]. *)
Fixpoint sample_loop (vars : list variable) (add : list nat) (i : nat) (Ms : list cpm) (sample : list Z) (fs : list Qc)
  : list (Qc * res (list Z * list Qc)) :=
  match Ms with
  | [] => [(1%Qc, Ok (sample, fs))]
  | M :: Ms' =>
      match (M' <- cond_sampled M vars sample ;; draw M') with
      | Err e => [(1%Qc, Err e)]
      | Ok rows =>
          flat_map (fun wr =>
            match put_mask (map (Nat.eqb i) add) (firstn (c_nch M) (fst (snd wr))) sample with
            | Err e => [(fst wr, Err e)]
            | Ok s' => map (fun o => ((fst wr * fst o)%Qc, snd o)) (sample_loop vars add (S i) Ms' s' (fs ++ [snd (snd wr)]))
            end) rows
      end
  end.

(** operation.py 196-256 [single_sample]: [zip(sample_order, cpms)] takes the CPMs in
    the order in which they are given, as many as [sample_order] is long *)
Definition single_sample (cpms : list cpm) (order : list nat) (vars : list variable) (add : list nat)
  : list (Qc * res (list Z * list Qc)) :=
  sample_loop vars add 0 (map snd (combine order cpms)) (map (fun _ => 0) vars) [].

(** operation.py 243, 249 and 174-188: the row of [Cs] and of [q] that [mcs_product]
    stores for one sample; [exp] of a sum of logarithms is the product.  The columns
    of [Cs] are reversed; those of [q] are reversed only for is_scalar=True, when there
    is just one. *)
Definition mcs_row (is_scalar : bool) (o : list Z * list Qc) : list Z * list Qc :=
  (rev (fst o), if is_scalar then rev [qprod (snd o)] else snd o).
(** the variables of the CPM that [mcs_product] returns *)
Definition mcs_vars (vars : list variable) : list variable := rev vars.
