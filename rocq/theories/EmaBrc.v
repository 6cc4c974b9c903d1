(** Model of demos/EMA/brc.py: the edges are put into three groups at random, and a search with the rule sets
    of an earlier one. *)
From Coq Require Import ZArith List String Bool Arith QArith Qcanon.
From Verif Require Import Py Num Vari Brc Cpm Model Bnb Trans Config WriteNet.
Import ListNotations.
Open Scope string_scope.
Open Scope Z_scope.
Open Scope list_scope.

(** demos/EMA/brc.py 34-39.  [ints] is the list of numbers after [random.shuffle].  [sorted] is left out: the
    groups are only asked for members. *)
Definition prob_groups (ints : list nat) : list (list nat) :=
  let g := (List.length ints / 3)%nat in
  [firstn g ints; skipn g (firstn (2 * g) ints); skipn (2 * g) ints].

(** demos/EMA/brc.py 44: the index of the first group with [i].  Without such a group [next] raises
    StopIteration; ValueError stands for it. *)
Fixpoint group_index (groups : list (list nat)) (i : nat) : res Z :=
  match groups with
  | [] => Err ValueError
  | g :: groups' => if existsb (Nat.eqb i) g then Ok 0 else (z <- group_index groups' i ;; Ok (z + 1))
  end.

(** demos/EMA/brc.py 42-45: the class of the edge 'e1', 'e2', ... ; the probabilities of a class (40) are those of
    [probs_set] in batch.py 68-72.  The names differ, so that no entry is replaced. *)
Definition edge_classes (ints : list nat) (n : nat) : res (dict Z) :=
  mapM (fun i => c <- group_index (prob_groups ints) i ;; Ok (("e" ++ num_str (i + 1))%string, c)) (seq 0 n).

Section Functions.
Variable nx_wpath : graph -> string -> string -> res (list string).
Variable nx_wlen : graph -> string -> string -> res value.

(** demos/EMA/brc.py 22-73 [main].  The functions made in 56 and 68 are not called before the name [brc] is looked
    up in 72: the file imports [branch], [trans], [variable] and [cpm], but not [brc].  [A] is the type of
    what would be saved (82-105). *)
Definition ema_brc_main {A} (f : netfile) (sc : scenfile value) (ints : list nat) : res A :=
  net <- read_model f ;;
  let G := fst (fst net) in
  let edges := keys (snd (fst net)) in
  cl <- edge_classes ints (List.length edges) ;;
  pr <- mapM (fun kc => p <- probs_set (snd kc) ;; Ok (fst kc, p)) cl ;;
  vc <- mapM (fun k =>
    s1 <- dget (snd sc) "s1" ;;
    vs <- dget s1 k ;;
    let v := mk_variable k vs None in
    p <- dget pr k ;;
    let '(a, b, c) := p in
    M <- mk_cpm [v] 1 [[0]; [1]; [2]] [a; b; c] ;;
    Ok (k, (v, M))) edges ;;
  let varis := map (fun e => (fst e, fst (snd e))) vc in
  od <- dget (snd net) "od2" ;;
  _ <- get_time_and_path_given_comps nx_wpath nx_wlen (best_of varis) G (fst od) (snd od) varis ;;
  Err NameError.
End Functions.
