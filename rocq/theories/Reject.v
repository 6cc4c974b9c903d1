(** Model of [rejection_sampling_sys], /repo/BNS_JT/operation.py 257-402, up to the first use of a
    sample.  No call gets further (C71), so what follows is a parameter. *)
From Coq Require Import ZArith List String Bool Arith QArith Qcanon.
From Verif Require Import Py Num Vari Cpm Net Sample.
Import ListNotations.
Open Scope string_scope.
Open Scope Z_scope.
Open Scope list_scope.

(** operation.py 279-285: [nsamp_cov] is a number of samples (int) or a target coefficient of variation (float) *)
Inductive request : Type := Number (n : Z) | Target (c : Qc).
(** operation.py 316, the condition of the loop at the start: [stop] is 0 < n, or c + 1 > c *)
Definition wanted (r : request) : bool := match r with Number n => 0 <? n | Target _ => true end.

(** operation.py 291-294: CPMs with a child in the scope of the system's CPM, without that one *)
Definition cpms_no_sys (cpms : dict cpm) (sys : string) (Y : cpm) : dict cpm :=
  filter (fun kM => negb (String.eqb (fst kM) sys) &&
                    existsb (fun v => existsb (fun w => String.eqb (v_name v) (v_name w)) (c_vars Y)) (children (snd kM))) cpms.

(** operation.py 299: places of the components among the sampled variables; None for the ValueError *)
Fixpoint places_of (vars comps : list variable) : option (list nat) :=
  match comps with
  | [] => Some []
  | v :: comps' =>
      match find_idx (fun w => String.eqb (v_name w) (v_name v)) vars, places_of vars comps' with
      | Some i, Some l => Some (i :: l)
      | _, _ => None
      end
  end.

(** cpm.py 1037-1038: variables of given names *)
Definition by_names (vars : list variable) (ns : list string) : list variable :=
  flat_map (fun n => filter (fun v => String.eqb (v_name v) n) vars) ns.

(** operation.py 257-402.  Line 302 calls [get_var_ind], which is defined nowhere: NameError as
    soon as there is a CPM.  After the ValueError of line 299 [cpms_v_idxs] is not bound, which is found
    at line 373 if no sample is taken.  Otherwise the first sample is drawn (line 320) and compared
    with the rows of the system (line 323); [rest] is what follows, [done] the code after the loop. *)
Definition rejection_sampling_sys {R} (rest : list Z -> list bool -> list (Qc * res R)) (done : list (Qc * res R))
  (cpms : dict cpm) (sys : string) (req : request) : list (Qc * res R) :=
  match dfind cpms sys with
  | None => [(1%Qc, Err KeyError)]
  | Some Y =>
      let comps := parents Y in
      let sub := cpms_no_sys cpms sys Y in
      let '(order, vars, add) := get_sample_order (map snd sub) in
      let loop (locs : list nat) (unbound : bool) : list (Qc * res R) :=
        if wanted req then
          flat_map (fun o =>
            match snd o with
            | Err e => [(fst o, Err e)]
            | Ok (sample, _) =>
                match fn_iscompatible (map (skipn (c_nch Y)) (c_C Y)) comps (by_names comps (names comps)) (map (fun i => SI (nth i sample 0)) locs) with
                | Err e => [(fst o, Err e)]
                | Ok is => map (fun x => ((fst o * fst x)%Qc, snd x)) (rest sample is)
                end
            end) (single_sample (map snd sub) order vars add)
        else match sub with
             | [] => done
             | _ => if unbound then [(1%Qc, Err UnboundLocalError)] else done
             end in
      match places_of vars comps with
      | Some locs => match sub with [] => loop locs false | _ => [(1%Qc, Err NameError)] end
      | None => loop [] true
      end
  end.
