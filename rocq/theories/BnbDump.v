(** Model of the reading of one dump: /repo/BNS_JT/branch.py 490-507. *)
From Coq Require Import ZArith List String Bool.
From Verif Require Import Py Bnb.
Import ListNotations.
Open Scope string_scope.
Open Scope Z_scope.
Open Scope list_scope.

(** [json.load] of a file: lists come back for the tuples, and [tuple(x)] makes them tuples
    again; states and system states are integers *)
Definition load (d : dir) (file_name : string) : res (list bb) :=
  match dfind d file_name with Some l => Ok l | None => Err FileNotFoundError end.

(** branch.py 490-497 [get_bstars_from_sb_dump]: the branches that are not complete *)
Definition get_bstars_from_sb_dump (d : dir) (file_name : string) : res (list bb) :=
  tmp <- load d file_name ;;
  Ok (filter (fun x => negb (fl x =? fu x)) tmp).

(** branch.py 500-507 [get_sb_saved_from_sb_dump]: those that are *)
Definition get_sb_saved_from_sb_dump (d : dir) (file_name : string) : res (list bb) :=
  tmp <- load d file_name ;;
  Ok (filter (fun x => fl x =? fu x) tmp).
