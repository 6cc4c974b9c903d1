(** Specification vocabulary for inference by conditioning. *)
From Coq Require Import ZArith List String Bool QArith Qcanon.
From Verif Require Import Py Num Vari Cpm SpecCpm.
Import ListNotations.
Open Scope string_scope.
Open Scope Z_scope.
Open Scope list_scope.

(** no joint state is allowed by two rows *)
Definition one_row (M : cpm) : Prop :=
  forall a, (List.length (filter (fun r => row_match (c_vars M) r a) (c_C M)) <= 1)%nat.

(** [v] occurs in one of the CPMs *)
Definition in_scopes (l : list cpm) (v : variable) : Prop := exists N, In N l /\ In v (c_vars N).
Definition in_children (l : list cpm) (v : variable) : Prop := exists N, In N l /\ In v (children N).

(** admissible arguments for elimination of [varis] from [l] row by row of the product of
    [cond]: the eliminated variables do not occur in [cond], the rows of each CPM of [cond]
    exclude each other, and every variable of [cond] is listed in basic states there *)
Definition vec_ok (l : list cpm) (varis : list variable) (cond : list cpm) : Prop :=
  fit_list (l ++ cond) /\ Forall has_p (l ++ cond) /\ ve_ok l varis /\ Forall one_row cond /\
  (forall v, In v varis -> ~ exists N, In N cond /\ In (v_name v) (names (c_vars N))) /\
  (forall v, in_scopes cond v -> exists N, In N cond /\ In v (c_vars N) /\ basic_in N v).

(** [K] lists the variables of the CPMs [l] *)
Definition lists_scopes (K : list variable) (l : list cpm) : Prop :=
  NoDup (names K) /\ forall v, In v K <-> in_scopes l v.

(** the first CPM that has a variable of this name, and that variable *)
Definition first_var (l : list cpm) (n : string) : option variable :=
  match find (fun M => mem_str n (names (c_vars M))) l with
  | Some M => find (fun v => String.eqb (v_name v) n) (c_vars M)
  | None => None
  end.

(** the table of [v] lists basic states without repetition *)
Definition basic_table (v : variable) : Prop :=
  0 < nvals v /\ forall c, NoDup (states_of v c) /\ forall x, In x (states_of v c) -> 0 <= x < nvals v.

(** a conditional probability table of [x] given [h]: one row for each pair of basic states *)
Definition cpt (m : cpm) (x h : variable) : Prop :=
  wf_cpm m /\ has_p m /\ c_vars m = [x; h] /\ c_nch m = 1%nat /\ lists_states m /\ NoDup (c_C m) /\
  forall i k, 0 <= i < nvals x -> 0 <= k < nvals h -> In [i; k] (c_C m).

(** a network of three levels: a hazard [h] with CPM [Ph], components [comps] that depend on
    the hazard, a system [S] that depends on the components *)
Definition hazard_net (cpms : dict cpm) (sys : string) (h : variable) (S Ph : cpm) (comps : list cpm) : Prop :=
  dfind cpms sys = Some S /\ wf_cpm S /\ has_p S /\ c_C S <> [] /\ children S <> [] /\ parents S <> [] /\
  ~ In (v_name h) (names (c_vars S)) /\ ~ In sys (names (parents S)) /\
  dfind cpms (v_name h) = Some Ph /\ wf_cpm Ph /\ has_p Ph /\ c_vars Ph = [h] /\ c_nch Ph = 1%nat /\
  lists_states Ph /\ NoDup (c_C Ph) /\ c_C Ph <> [] /\
  Forall2 (fun x m => dfind cpms (v_name x) = Some m /\ cpt m x h /\ basic_table x) (parents S) comps.

(** the CPMs [cond] have rows that allow the joint state [b] *)
Definition allows (cond : list cpm) (b : joint) : Prop :=
  forall N, In N cond -> exists row, In row (c_C N) /\ row_match (c_vars N) row b = true.

(** the codes that [row] of [N] has for variables of [K] allow [b] *)
Definition goes_with (K : list variable) (N : cpm) (row : list Z) (b : joint) : Prop :=
  forall v c, In (v, c) (combine (c_vars N) row) -> In v K -> In (b (v_name v)) (states_of v c).

(** the row that [N] has for one state of the conditioning variables it has for all: with the
    same codes for the other variables *)
Definition even_rows (K : list variable) (cond : list cpm) (N : cpm) : Prop :=
  forall row a b, In row (c_C N) -> goes_with K N row a -> allows cond a -> allows cond b ->
    exists row', In row' (c_C N) /\ goes_with K N row' b /\
      forall v c, In (v, c) (combine (c_vars N) row) -> ~ In v K -> In (v, c) (combine (c_vars N) row').

(** under this condition elimination row by row succeeds: whatever the conditioning CPMs list
    is possible, every eliminated variable is connected with one that stays, and the CPMs
    have the same rows for each state of the conditioning variables *)
Definition vec_total (l : list cpm) (varis : list variable) (cond : list cpm) (K : list variable) : Prop :=
  l <> [] /\ cond <> [] /\ (exists b, allows cond b) /\
  (forall b, allows cond b -> exists a, (forall v, In v K -> a (v_name v) = b (v_name v)) /\ alive (l ++ cond) a) /\
  (forall v, In v varis -> exists q, linked l (v_name v) q /\ ~ In q (names varis)) /\
  (forall N, In N l -> even_rows K cond N).
