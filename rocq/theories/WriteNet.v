(** Model of the writing of network files (trans.py 368-524) and of the demos that write and
    read them: demos/EMA/batch.py, demos/road/batch.py, demos/SF/batch.py. *)
From Coq Require Import ZArith List String Bool QArith Qcanon.
From Verif Require Import Py Num Vari Brc Cpm Model Trans Config PfMap.
Import ListNotations.
Open Scope string_scope.
Open Scope Z_scope.
Open Scope list_scope.

(** the input: arcs with their ends (lists of two names), coordinates of the nodes, speeds of
    the arcs, pairs of nodes.  A dictionary that is written with [json.dump] and read again is
    the same; names are strings. *)
Definition arcs_t : Type := dict (string * string).

(** trans.py 389-431 [create_model_json_for_graph_network]: weight 1.  [system_meta] (19-53) has
    no 'graph_type'.  Fields that are always None and the coordinates, which the reader only
    keeps as attributes, are left out. *)
Definition create_model_graph (arcs : arcs_t) (coords : dict point) (ODs : arcs_t) : netfile :=
  mkNetfile (keys coords) (map (fun ka => (fst ka, mkEntry (fst (snd ka)) (snd (snd ka)) 1%Qc)) arcs) ODs None.

(** a file of scenarios: the damage states, and for each scenario the values of the arcs *)
Definition scenfile (A : Type) : Type := (list value * dict (dict (list A)))%type.

(** trans.py 473-492 [create_scenario_json_for_trans_network]; the two assertions about types hold *)
Definition create_scenario {A} (damage_states : list value) (scenarios_dic : dict (dict (list A))) : scenfile A :=
  (damage_states, scenarios_dic).

Section Functions.
(** [np.sqrt] and [lognorm.cdf(x, s, scale=m)] *)
Variable np_sqrt : Qc -> Qc.
Variable lognorm_cdf : Qc -> Qc -> Qc -> Qc.

(** trans.py 368-386 [get_node_conn_df].  A length divided by speed 0 is infinite or nan in
    numpy; such weights are not modelled, and an error stands for them. *)
Definition get_node_conn_df (arcs : arcs_t) (coords : dict point) (speeds : dict Qc) : res (dict entry) :=
  lens <- get_arcs_length np_sqrt arcs coords ;;
  mapM (fun ka =>
    len <- dget lens (fst ka) ;;
    speed <- dget speeds (fst ka) ;;
    if qc_eqb speed 0%Qc then Err ZeroDivisionError
    else Ok (fst ka, mkEntry (fst (snd ka)) (snd (snd ka)) (len / speed)%Qc)) arcs.

(** trans.py 434-470 [create_model_json_for_tranportation_network] *)
Definition create_model_trans (arcs : arcs_t) (coords : dict point) (speeds : dict Qc) (ODs : arcs_t) : res netfile :=
  df <- get_node_conn_df arcs coords speeds ;;
  Ok (mkNetfile (keys coords) df ODs None).

(** trans.py 495-524 [create_scenario_json_for_tranportation_network]; a type of fragility has
    'std' and 'med' *)
Definition create_scenario_frag (damage_states : list value) (arcs : arcs_t) (type_by_arc : dict string)
    (frag_by_type : dict (Qc * Qc)) (obs_by_arc : dict Qc) : res (scenfile Qc) :=
  s1 <- mapM (fun ka =>
    ty <- dget type_by_arc (fst ka) ;;
    obs <- dget obs_by_arc (fst ka) ;;
    fr <- dget frag_by_type ty ;;
    let prob := lognorm_cdf obs (fst fr) (snd fr) in
    Ok (fst ka, [prob; (1 - prob)%Qc])) arcs ;;
  Ok (damage_states, [("s1", s1)]).

(** demos/EMA/batch.py 42-54, road/batch.py 50-62, SF/batch.py 41-53 [create_model]: three states
    with ten times, twice and once the travel time *)
Definition delay_rate : list Qc := [qz 10; qz 2; qz 1].
Definition create_model (arcs : arcs_t) (coords : dict point) (speeds : dict Qc) (ODs : arcs_t) : res (netfile * scenfile value) :=
  dic_model <- create_model_trans arcs coords speeds ODs ;;
  s1 <- mapM (fun ka =>
    en <- dget (node_conn_df dic_model) (fst ka) ;;
    Ok (fst ka, map (fun x => VNum (x * weight en)%Qc) delay_rate)) arcs ;;
  Ok (dic_model, create_scenario [VStr "ds1"; VStr "ds2"; VStr "ds3"] [("s1", s1)]).

Variable nx_path : graph -> string -> string -> option (list string).
Variable nx_wpath : graph -> string -> string -> res (list string).
Variable nx_wlen : graph -> string -> string -> res value.

(** demos/road/batch.py 65-70 [main] with model.py 32-60 for all pairs.  The variables are made once;
    those with up to six values have all composite states, so that no pair changes them. *)
Definition road_main (f : netfile) (sc : scenfile value) (max_branches : Z) : res (dict (list (list Z) * dict variable)) :=
  net <- read_model f ;;
  s1 <- dget (snd sc) "s1" ;;
  mapM (fun kod : string * (string * string) =>
    r <- get_branches_by_od nx_path nx_wpath nx_wlen (fst (fst net)) (keys (snd (fst net))) s1 (fst (snd kod)) (snd (snd kod)) max_branches ;;
    Ok (fst kod, r)) (snd net).

(** demos/EMA/batch.py 68-72 *)
Definition probs_set (c : Z) : res (Qc * Qc * Qc) :=
  match c with
  | 0 => Ok (Q2Qc (1 # 100), Q2Qc (4 # 100), Q2Qc (95 # 100))
  | 1 => Ok (Q2Qc (3 # 100), Q2Qc (12 # 100), Q2Qc (85 # 100))
  | 2 => Ok (Q2Qc (6 # 100), Q2Qc (24 # 100), Q2Qc (70 # 100))
  | _ => Err KeyError
  end.

(** demos/EMA/batch.py 125-127: the entries of the two monitors are added, which joins lists and
    strings; the flags are returned apart.  None for a flag is a TypeError.  The entry
    'max_bu' is 0 + 0. *)
Definition flag_name (f : oflag) : string :=
  match f with O_complete => "complete" | O_max_nb => "max_nb" | O_pf_bnd => "pf_bnd" | O_max_rules => "max_rules" | O_max_sf => "max_sf" end.
Definition join_monitors (a b : monitor) : res (monitor * string) :=
  match m_out_flag a, m_out_flag b with
  | Some fa, Some fb =>
      Ok (mkMon (m_pf_up a ++ m_pf_up b) (m_pf_low a ++ m_pf_low b) (m_pr_bu a ++ m_pr_bu b)
                (m_no_br a ++ m_no_br b) (m_no_bs a ++ m_no_bs b) (m_no_bf a ++ m_no_bf b) (m_no_bu a ++ m_no_bu b)
                (m_no_rs a ++ m_no_rs b) (m_no_rf a ++ m_no_rf b) (m_no_ra a ++ m_no_ra b) (m_no_sf a ++ m_no_sf b)
                (m_min_len_rf a ++ m_min_len_rf b) (m_avg_len_rf a ++ m_avg_len_rf b) None,
          String.append (flag_name fa) (flag_name fb))
  | _, _ => Err TypeError
  end.

(** what demos/EMA/batch.py 103-131 [main] saves: branches, CPMs, variables, rules and the joined monitor *)
Record ema_out : Type := mkEma { em_brs : list branch; em_cpms : dict cpm; em_varis : dict variable; em_rules : ruleset; em_mon : monitor * string }.

(** demos/EMA/batch.py 57-131 [main].  [pk] are the classes drawn for the edges (74).  The second
    search starts from the rules of the first, with a larger number of branches. *)
Definition ema_main (f : netfile) (sc : scenfile value) (key : string) (pk : list Z) (max_sf : Z) : res ema_out :=
  net <- read_model f ;;
  od <- dget (snd net) key ;;
  let G := fst (fst net) in
  let edges := keys (snd (fst net)) in
  pr <- mapM (fun kc => p <- probs_set (snd kc) ;; Ok (fst kc, p)) (combine edges pk) ;;
  let probs : prob_dict := map (fun kp => (fst kp, let '(a, b, c) := snd kp in PDict [(0, a); (1, b); (2, c)])) pr in
  vc <- mapM (fun k =>
    s1 <- dget (snd sc) "s1" ;;
    vs <- dget s1 k ;;
    let v := mk_variable k vs None in
    p <- dget pr k ;;
    let '(a, b, c) := p in
    M <- mk_cpm [v] 1 [[0]; [1]; [2]] [a; b; c] ;;
    Ok (k, (v, M))) edges ;;
  let varis := map (fun e => (fst e, fst (snd e))) vc in
  let cpms := map (fun e => (fst e, snd (snd e))) vc in
  c <- get_time_and_path_given_comps nx_wpath nx_wlen (best_of varis) G (fst od) (snd od) varis ;;
  let sys_fun := as_sysfun (fun x => sf_min_path nx_path nx_wpath nx_wlen x G (fst od) (snd od) varis (Some (t_double (fst (fst c))))) in
  s1 <- run varis probs sys_fun (mkCfg max_sf (Some 10000) 0%Qc None true true) None None ;;
  s2 <- run varis probs sys_fun (mkCfg max_sf (Some 50000) 0%Qc None true true) (Some (s_rules s1)) None ;;
  match s_brs s2 with
  | None => Err TypeError
  | Some brs2 =>
      cv <- get_csys brs2 varis st_br_to_cs ;;
      let vsys := mk_variable "sys" [VStr "f"; VStr "s"; VStr "u"] None in
      vs <- mapM (dget (dset (snd cv) "sys" vsys)) edges ;;
      M <- mk_cpm (vsys :: vs) 1 (fst cv) (map (fun _ => 1%Qc) (fst cv)) ;;
      mon <- join_monitors (s_mon s1) (s_mon s2) ;;
      Ok (mkEma brs2 (dset cpms "sys" M) (dset (snd cv) "sys" vsys) (s_rules s2) mon)
  end.
End Functions.
