(** Specification vocabulary for the branch-and-reliability-bound search: the
    space of component vectors, rules as sets of vectors, boxes, probability.
    Nothing here refers to the functions of the model; only its data types
    ([dict], [variable], [branch], [ruleset], [prob_dict]) are used. *)
From Coq Require Import ZArith List String Bool QArith Qcanon.
From Verif Require Import Py Num Vari Brc.
Import ListNotations.
Open Scope string_scope.
Open Scope Z_scope.
Open Scope list_scope.

(** names and numbers of states of the components *)
Definition comps_of (varis : dict variable) : list (string * Z) :=
  map (fun kv => (fst kv, nvals (snd kv))) varis.

(** all component vectors *)
Fixpoint space (cs : list (string * Z)) : list (dict Z) :=
  match cs with
  | [] => [[]]
  | (k, n) :: cs' => flat_map (fun x => map (cons (k, x)) (space cs')) (zrange 0 n)
  end.

(** state of component [k] in vector [x] *)
Definition coord (x : dict Z) (k : string) : Z :=
  match dfind x k with Some v => v | None => 0 end.

(** [x] satisfies the survival rule / failure rule [r] *)
Definition sat_s (r x : dict Z) : bool := forallb (fun kv => snd kv <=? coord x (fst kv)) r.
Definition sat_f (r x : dict Z) : bool := forallb (fun kv => coord x (fst kv) <=? snd kv) r.

(** [x] lies in the box of branch [b] *)
Definition in_branch (b : branch) (x : dict Z) : bool :=
  forallb (fun kv => (coord (b_down b) (fst kv) <=? snd kv) && (snd kv <=? coord (b_up b) (fst kv))) x.

(** probability that component [k] is in state [x] *)
Definition pr (probs : prob_dict) (k : string) (x : Z) : Qc :=
  match dfind probs k with
  | Some d => match pget d x with Ok q => q | Err _ => 0%Qc end
  | None => 0%Qc
  end.

(** probability of a vector (independent components) and of an event *)
Definition prob_of (probs : prob_dict) (x : dict Z) : Qc :=
  qprod (map (fun kv => pr probs (fst kv) (snd kv)) x).
Definition prob_event (varis : dict variable) (probs : prob_dict) (E : dict Z -> bool) : Qc :=
  qsum (map (prob_of probs) (filter E (space (comps_of varis)))).

(** componentwise order *)
Definition le_vec (varis : dict variable) (x y : dict Z) : Prop :=
  forall k, In k (keys varis) -> coord x k <= coord y k.

(** [phi x = true]: the system survives.  Coherent: never hurt by improvement. *)
Definition coherent (varis : dict variable) (phi : dict Z -> bool) : Prop :=
  forall x y, In x (space (comps_of varis)) -> In y (space (comps_of varis)) ->
    le_vec varis x y -> phi x = true -> phi y = true.

(** Well-formed inputs. *)
Definition wf_varis (varis : dict variable) : Prop :=
  NoDup (keys varis) /\ forall k v, In (k, v) varis -> 1 <= nvals v.

Definition wf_probs (varis : dict variable) (probs : prob_dict) : Prop :=
  forall k v, In (k, v) varis ->
    (exists d, dfind probs k = Some d /\
       forall x, 0 <= x < nvals v -> exists q, pget d x = Ok q /\ (0 <= q)%Qc) /\
    qsum (map (pr probs k) (zrange 0 (nvals v))) = 1%Qc.

Definition wf_rule (varis : dict variable) (r : dict Z) : Prop :=
  NoDup (keys r) /\ incl (keys r) (keys varis).

Definition wf_rules (varis : dict variable) (rs : ruleset) : Prop :=
  (forall r, In r (r_s rs) -> wf_rule varis r) /\ (forall r, In r (r_f rs) -> wf_rule varis r).

(** the rules tell the truth about [phi] *)
Definition sound_rules (varis : dict variable) (phi : dict Z -> bool) (rs : ruleset) : Prop :=
  (forall r x, In r (r_s rs) -> In x (space (comps_of varis)) -> sat_s r x = true -> phi x = true) /\
  (forall r x, In r (r_f rs) -> In x (space (comps_of varis)) -> sat_f r x = true -> phi x = false).

(** some survival / failure rule matches *)
Definition match_s (rs : ruleset) (x : dict Z) : bool := existsb (fun r => sat_s r x) (r_s rs).
Definition match_f (rs : ruleset) (x : dict Z) : bool := existsb (fun r => sat_f r x) (r_f rs).

(** every vector lies in exactly one branch *)
Definition partition (varis : dict variable) (brs : list branch) : Prop :=
  forall x, In x (space (comps_of varis)) ->
    List.length (filter (fun b => in_branch b x) brs) = 1%nat.

(** branch probabilities are exact *)
Definition exact_probs (varis : dict variable) (probs : prob_dict) (brs : list branch) : Prop :=
  forall b, In b brs -> b_p b = prob_event varis probs (in_branch b).

(** labels tell the truth about the whole box *)
Definition sound_labels (varis : dict variable) (phi : dict Z -> bool) (brs : list branch) : Prop :=
  forall b x, In b brs -> In x (space (comps_of varis)) -> in_branch b x = true ->
    (b_up_state b = F_ -> phi x = false) /\ (b_down_state b = S_ -> phi x = true).

(** probability of system failure *)
Definition p_fail (varis : dict variable) (probs : prob_dict) (phi : dict Z -> bool) : Qc :=
  prob_event varis probs (fun x => negb (phi x)).

(** The system function computes [phi]; a non-empty minimal vector that it
    returns matches the argument and tells the truth. *)
Definition sys_ok (varis : dict variable) (phi : dict Z -> bool) (sys_fun : sysfun) : Prop :=
  coherent varis phi /\
  forall x, In x (space (comps_of varis)) ->
    exists val m, sys_fun x = (val, (if phi x then S_ else F_), m) /\
      forall r, m = Some r -> r <> [] ->
        wf_rule varis r /\
        (phi x = true -> sat_s r x = true /\
           forall y, In y (space (comps_of varis)) -> sat_s r y = true -> phi y = true) /\
        (phi x = false -> sat_f r x = true /\
           forall y, In y (space (comps_of varis)) -> sat_f r y = true -> phi y = false).

(** branches that a previous call may hand over: proper boxes, exact
    probabilities, a partition, end labels justified by the rules *)
Definition boxes (varis : dict variable) (brs : list branch) : Prop :=
  forall b, In b brs -> In (b_down b) (space (comps_of varis)) /\ In (b_up b) (space (comps_of varis)) /\
    le_vec varis (b_down b) (b_up b).
Definition labels_by_rules (rs : ruleset) (brs : list branch) : Prop :=
  forall b, In b brs ->
    (b_down_state b = S_ -> match_s rs (b_down b) = true) /\
    (b_down_state b = F_ -> match_f rs (b_down b) = true) /\
    (b_up_state b = S_ -> match_s rs (b_up b) = true) /\
    (b_up_state b = F_ -> match_f rs (b_up b) = true).
Definition valid_brs (varis : dict variable) (probs : prob_dict) (rs : ruleset) (brs : list branch) : Prop :=
  boxes varis brs /\ exact_probs varis probs brs /\ labels_by_rules rs brs /\
  (brs <> [] -> partition varis brs).

(** rule [n] makes rule [r] redundant: every vector that satisfies [r]
    satisfies [n] by comparison of the entries alone *)
Definition covers_s (n r : dict Z) : Prop :=
  forall k v, In (k, v) n -> exists w, dfind r k = Some w /\ v <= w.
Definition covers_f (n r : dict Z) : Prop :=
  forall k v, In (k, v) n -> exists w, dfind r k = Some w /\ w <= v.

(** no entry of the list makes another entry redundant *)
Definition antichain {A} (R : A -> A -> Prop) (l : list A) : Prop :=
  forall i j a b, nth_error l i = Some a -> nth_error l j = Some b -> i <> j -> ~ R a b.

(** [c] is a code of variable [k] whose set of basic states contains [s] *)
Definition coded (varis : dict variable) (k : string) (c s : Z) : Prop :=
  exists v B e, dfind varis k = Some v /\ v_B v = Some B /\ 0 <= c /\
    nth_error B (Z.to_nat c) = Some e /\ In s e.

(** the code table of [v] starts with the basic states 0, ..., n-1 *)
Definition basic_table (v : variable) : Prop :=
  exists B, v_B v = Some B /\ forall s, 0 <= s < nvals v ->
    exists e, nth_error B (Z.to_nat s) = Some e /\ forall x, In x e <-> x = s.

(** [varis'] has the same variables; codes of [varis] keep their meaning *)
Definition tables_extend (varis varis' : dict variable) : Prop :=
  keys varis' = keys varis /\
  forall k v B, dfind varis k = Some v -> v_B v = Some B ->
    exists v' B', dfind varis' k = Some v' /\ v_B v' = Some B' /\
      v_name v' = v_name v /\ v_values v' = v_values v /\
      forall i e, nth_error B i = Some e -> nth_error B' i = Some e.

(** A branch with an upper end that fails fails at its lower end, too, and a
    branch with a lower end that survives survives at its upper end. *)
Definition proper_labels (brs : list branch) : Prop :=
  forall b, In b brs -> (b_up_state b = F_ -> b_down_state b = F_) /\ (b_down_state b = S_ -> b_up_state b = S_).
