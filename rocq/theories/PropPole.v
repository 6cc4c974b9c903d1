(** C109: the map of poles of demos/power_house. *)
From Coq Require Import ZArith List String Bool Arith Lia QArith Qcanon.
From Verif Require Import Py PyFacts Num Vari VariFacts Pole.
Import ListNotations.
Open Scope string_scope.
Open Scope Z_scope.
Open Scope list_scope.

(** * Specification *)
(** [h] is the first house that has the pole *)
Definition first_house (houses : dict (list string)) (pl h : string) : Prop :=
  exists pre pls post, houses = pre ++ (h, pls) :: post /\ In pl pls /\ forall k l, In (k, l) pre -> ~ In pl l.
(** [path] is the first path of the last substation, of those that have a path with the pole *)
Definition own_path (paths : dict (list (list string))) (pl sub : string) (path : list string) : Prop :=
  exists pre ps post pre' post', paths = pre ++ (sub, ps) :: post /\ ps = pre' ++ path :: post' /\ In pl path /\
    (forall p, In p pre' -> ~ In pl p) /\ (forall s l p, In (s, l) post -> In p l -> ~ In pl p).
(** the end of the pole on the side of the substation *)
Definition tail_of (paths : dict (list (list string))) (houses : dict (list string)) (pl t : string) : Prop :=
  exists sub path, own_path paths pl sub path /\
    ((exists l, path = pl :: l /\ t = sub) \/
     (exists l1 prev l2, path = l1 ++ prev :: pl :: l2 /\ ~ In pl l1 /\ prev <> pl /\ first_house houses prev t)).

Lemma house_of_spec houses pl :
  match house_of houses pl with
  | Some h => first_house houses pl h
  | None => forall k l, In (k, l) houses -> ~ In pl l
  end.
Proof.
  unfold house_of. induction houses as [|[k l] houses IH]; cbn [find]; [intros k l []|]. cbn [snd fst]. destruct (mem_str pl l) eqn:E.
  - apply mem_str_In in E. exists [], l, houses. split; [auto|]. split; [auto|]. intros k' l' [].
  - assert (N : ~ In pl l) by (intros X; apply mem_str_In in X; congruence). destruct (find _ houses) as [[h p]|].
    + destruct IH as (pre & pls & post & -> & H1 & H2). exists ((k, l) :: pre), pls, post. split; [auto|]. split; [auto|].
      intros k' l' [X|X]; [injection X as <- <-; auto|eauto].
    + intros k' l' [X|X]; [injection X as <- <-; auto|eauto].
Qed.
Lemma house_of_first houses pl h : first_house houses pl h -> house_of houses pl = Some h.
Proof.
  intros (pre & pls & post & -> & H1 & H2). unfold house_of. induction pre as [|[k l] pre IH]; cbn [app find snd].
  - rewrite (proj2 (mem_str_In pl pls) H1). auto.
  - destruct (mem_str pl l) eqn:E; [apply mem_str_In in E; exfalso; apply (H2 k l); cbn; auto|]. apply IH. intros. apply (H2 k0). cbn. auto.
Qed.
Lemma first_index pl path : In pl path ->
  (exists l, path = pl :: l /\ find_idx (String.eqb pl) path = Some O) \/
  (exists l1 prev l2, path = l1 ++ prev :: pl :: l2 /\ ~ In pl l1 /\ prev <> pl /\ find_idx (String.eqb pl) path = Some (S (List.length l1)) /\ nth (List.length l1) path "" = prev).
Proof.
  induction path as [|x path IH]; intros H; [destruct H|]. cbn [find_idx]. destruct (String.eqb pl x) eqn:E.
  - apply String.eqb_eq in E. subst x. left. eauto.
  - apply String.eqb_neq in E. destruct H as [H|H]; [congruence|]. right. destruct (IH H) as [(l & -> & F)|(l1 & prev & l2 & -> & N & Np & F & X)].
    + exists [], x, l. rewrite F. cbn. repeat split; auto.
    + exists (x :: l1), prev, l2. rewrite F. cbn. repeat split; auto. intros [Y|Y]; auto.
Qed.

(** one substation after the other *)
Lemma tail_fold_none houses pl paths t : (forall s l p, In (s, l) paths -> In p l -> ~ In pl p) -> fold_left (tail_step houses pl) paths t = t.
Proof.
  intros H. revert t. induction paths as [|[s l] paths IH]; intros t; cbn [fold_left]; [auto|]. rewrite IH by (intros; eapply H; [right|]; eauto).
  unfold tail_step. cbn [snd]. destruct (find (mem_str pl) l) as [p|] eqn:E; [|auto]. apply find_some in E as [E1 E2]. apply mem_str_In in E2. exfalso. apply (H s l p); cbn; auto.
Qed.
Lemma find_first pl pre path (post : list (list string)) : In pl path -> (forall p, In p pre -> ~ In pl p) -> find (mem_str pl) (pre ++ path :: post) = Some path.
Proof.
  intros H N. induction pre as [|p pre IH]; cbn [app find].
  - rewrite (proj2 (mem_str_In pl path) H). auto.
  - destruct (mem_str pl p) eqn:E; [apply mem_str_In in E; exfalso; apply (N p); cbn; auto|]. apply IH. intros; apply N; cbn; auto.
Qed.
Lemma tail_fold houses pl paths t t0 : tail_of paths houses pl t -> fold_left (tail_step houses pl) paths t0 = Some t.
Proof.
  intros (sub & path & (pre & ps & post & pre' & post' & -> & -> & Hp & N1 & N2) & T). rewrite fold_left_app. cbn [fold_left]. rewrite tail_fold_none by auto.
  unfold tail_step. cbn [snd fst]. rewrite find_first by auto. destruct (first_index pl path Hp) as [(l & E & ->)|(l1 & prev & l2 & E & Nl & Np & -> & X)].
  - destruct T as [(l' & _ & ->)|(m1 & prev & m2 & E' & Nm & Np & _)]; [auto|]. exfalso. rewrite E in E'. destruct m1 as [|y m1]; cbn in E'; injection E' as <-; [congruence|apply Nm; left; auto].
  - rewrite X. destruct T as [(l' & E' & _)|(m1 & prev' & m2 & E' & Nm & Np' & F)].
    + exfalso. rewrite E in E'. destruct l1 as [|y l1]; cbn in E'; injection E' as <-; [congruence|apply Nl; left; auto].
    + assert (prev' = prev).
      { rewrite E in E'. clear - E' Nl Np Nm Np'. revert m1 E' Nm. induction l1 as [|y l1 IH]; intros [|z m1] E' Nm; cbn in E'.
        - congruence.
        - injection E' as -> E'. destruct m1 as [|u m1]; cbn in E'; [injection E' as <-; congruence|]. injection E' as -> E'. exfalso. apply Nm. cbn. auto.
        - injection E' as -> E'. destruct l1 as [|u l1]; cbn in E'; [injection E' as -> E'; congruence|]. injection E' as -> E'. exfalso. apply Nl. cbn. auto.
        - injection E' as <- E'. apply (IH (fun X => Nl (or_intror X)) m1 E'). intros X. apply Nm. right. auto. }
      subst prev'. rewrite (house_of_first _ _ _ F). auto.
Qed.

(** * The ends of the poles *)
(** If every pole has a house and the pole before it has one, the result is the same for every
    order of the set: the house of the pole before it, or the substation, and its own house. *)
Theorem C109_ends order paths houses :
  (forall pl, In pl order -> (exists t, tail_of paths houses pl t) /\ (exists h, first_house houses pl h)) ->
  exists conn, get_pole_conn order paths houses = Ok conn /\
    forall pl t h, dfind conn pl = Some (t, h) <-> In pl order /\ tail_of paths houses pl t /\ first_house houses pl h.
Proof.
  intros H. assert (U : forall pl t t', tail_of paths houses pl t -> tail_of paths houses pl t' -> t = t').
  { intros pl t t' A B. apply (tail_fold _ _ _ _ None) in A. apply (tail_fold _ _ _ _ None) in B. congruence. }
  assert (V : forall pl h h', first_house houses pl h -> first_house houses pl h' -> h = h').
  { intros pl t t' A B. apply house_of_first in A. apply house_of_first in B. congruence. }
  assert (G : forall rest done s, (forall pl, In pl rest -> In pl order) ->
    (forall pl t h, dfind (snd s) pl = Some (t, h) <-> In pl done /\ tail_of paths houses pl t /\ first_house houses pl h) ->
    exists s', foldM (pole_step paths houses) rest s = Ok s' /\
      forall pl t h, dfind (snd s') pl = Some (t, h) <-> In pl (done ++ rest) /\ tail_of paths houses pl t /\ first_house houses pl h).
  { induction rest as [|pl rest IH]; intros done [[tl hd] conn] Hr D; cbn [foldM].
    - exists (tl, hd, conn). split; [auto|]. rewrite app_nil_r. auto.
    - destruct (H pl (Hr pl (or_introl eq_refl))) as [[t Ht] [h Hh]]. unfold pole_step at 1. rewrite (tail_fold _ _ _ t) by auto. rewrite (house_of_first _ _ _ Hh). cbn [keep bind].
      replace (done ++ pl :: rest) with ((done ++ [pl]) ++ rest) by (rewrite <- app_assoc; auto).
      apply IH; [intros; apply Hr; right; auto|]. intros pl' t' h'. cbn [snd]. rewrite dfind_dset. destruct (String.eqb_spec pl' pl) as [->|N].
      + split.
        * intros X. injection X as <- <-. split; [apply in_or_app; cbn; auto|auto].
        * intros (_ & A & B). rewrite (U _ _ _ Ht A), (V _ _ _ Hh B). auto.
      + cbn [snd] in D. rewrite D. rewrite in_app_iff. cbn [In]. split; [intros (A & B); auto|intros ([A|[A|[]]] & B); [auto|congruence]]. }
  destruct (G order [] (None, None, []) ltac:(auto)) as (s' & E & D).
  { intros pl t h. cbn. split; [discriminate|intros [[] _]]. }
  exists (snd s'). unfold get_pole_conn. rewrite E. cbn [bind]. split; [auto|exact D].
Qed.

(** Along a path whose poles are in no other path, each in one house, the ends form a chain
    from the substation. *)
Definition only_path (paths : dict (list (list string))) (sub : string) (path : list string) : Prop :=
  exists pre ps post pre' post', paths = pre ++ (sub, ps) :: post /\ ps = pre' ++ path :: post' /\
    forall pl, In pl path -> (forall p, In p (pre' ++ post') -> ~ In pl p) /\ (forall s l p, In (s, l) (pre ++ post) -> In p l -> ~ In pl p).
Fixpoint chain (sub : string) (path : list string) (house : string -> string) : list (string * (string * string)) :=
  match path with
  | [] => []
  | pl :: l => (pl, (sub, house pl)) :: chain (house pl) l house
  end.
Theorem C109_chain order paths houses conn sub path house :
  (forall pl, In pl order -> (exists t, tail_of paths houses pl t) /\ (exists h, first_house houses pl h)) ->
  get_pole_conn order paths houses = Ok conn ->
  (forall pl, In pl path -> In pl order) -> NoDup path -> only_path paths sub path ->
  (forall pl, In pl path -> first_house houses pl (house pl)) ->
  forall pl th, In (pl, th) (chain sub path house) -> dfind conn pl = Some th.
Proof.
  intros H E Ho ND (pre & ps & post & pre' & post' & E1 & E2 & N) Hh pl th Hin.
  destruct (C109_ends order paths houses H) as (c & E' & D). rewrite E in E'. injection E' as <-.
  assert (O : forall pl, In pl path -> own_path paths pl sub path).
  { intros x Hx. destruct (N x Hx) as [A B]. exists pre, ps, post, pre', post'. split; [auto|]. split; [auto|]. split; [auto|]. split.
    - intros p Hp. apply A. apply in_or_app. auto.
    - intros s l p Hs. apply (B s l p). apply in_or_app. auto. }
  assert (C : forall l l0 x th, path = l0 ++ l -> In (x, th) (chain (last (map house l0) sub) l house) -> In x l /\ tail_of paths houses x (fst th) /\ snd th = house x).
  { induction l as [|y l IH]; intros l0 x [t h] Ep Hx; cbn [chain] in Hx; [destruct Hx|]. destruct Hx as [Hx|Hx].
    - injection Hx as <- <- <-. cbn [fst snd]. split; [left; auto|]. split; [|auto]. exists sub, path. split; [apply O; rewrite Ep; apply in_or_app; cbn; auto|].
      destruct l0 as [|z l0 _] using rev_ind; [left; exists l; auto|]. right. rewrite map_app. cbn [map]. rewrite last_last. exists l0, z, l.
      assert (Ny : ~ In y (l0 ++ [z])). { rewrite Ep in ND. apply NoDup_remove_2 in ND. intros X. apply ND. apply in_or_app. auto. }
      rewrite <- app_assoc in Ep. cbn in Ep. split; [auto|]. split; [intros X; apply Ny, in_or_app; auto|]. split; [intros ->; apply Ny, in_or_app; cbn; auto|].
      apply Hh. rewrite Ep. apply in_or_app. cbn. auto.
    - destruct (IH (l0 ++ [y]) x (t, h)) as (A & B); [rewrite <- app_assoc; auto|rewrite map_app; cbn [map]; rewrite last_last; auto|]. split; [right; auto|auto]. }
  destruct (C path [] pl th eq_refl Hin) as (A & B & Eh). destruct th as [t h]. cbn [fst snd] in *. subst h. apply D. auto.
Qed.

(** If the pole before has no house, the end is left over from another pole, and depends on the
    order of the set; in one order there may be an exception, in the other none. *)
Definition po_paths : dict (list (list string)) := [("s", [["a"; "b"]; ["c"]])].
Definition po_houses : dict (list string) := [("h", ["b"]); ("k", ["c"])].
Definition po_houses2 : dict (list string) := [("h", ["b"]); ("k", ["c"]); ("g", ["d"])].
Definition po_paths2 : dict (list (list string)) := [("s", [["a"; "b"]; ["c"; "d"]])].
Theorem C109_order_refuted :
  (exists order order' paths houses conn conn', (forall pl, In pl order <-> In pl order') /\ NoDup order /\ NoDup order' /\ (forall pl, In pl order <-> In pl (all_poles paths)) /\
     get_pole_conn order paths houses = Ok conn /\ get_pole_conn order' paths houses = Ok conn' /\ dfind conn "b" <> dfind conn' "b") /\
  (exists order order' paths houses conn, (forall pl, In pl order <-> In pl order') /\ NoDup order /\ NoDup order' /\ (forall pl, In pl order <-> In pl (all_poles paths)) /\
     get_pole_conn order paths houses = Ok conn /\ get_pole_conn order' paths houses = Err UnboundLocalError).
Proof.
  split.
  - exists ["c"; "d"; "b"; "a"], ["c"; "b"; "d"; "a"], po_paths2, po_houses2. do 2 eexists. split; [intros pl; cbn; tauto|].
    split; [repeat constructor; cbn; intuition discriminate|]. split; [repeat constructor; cbn; intuition discriminate|]. split; [intros pl; cbn; tauto|].
    split; [vm_compute; reflexivity|]. split; [vm_compute; reflexivity|]. vm_compute. discriminate.
  - exists ["c"; "a"; "b"], ["a"; "c"; "b"], po_paths, po_houses. eexists. split; [intros pl; cbn; tauto|].
    split; [repeat constructor; cbn; intuition discriminate|]. split; [repeat constructor; cbn; intuition discriminate|]. split; [intros pl; cbn; tauto|].
    split; [vm_compute; reflexivity|]. vm_compute. reflexivity.
Qed.

(** * Their places *)
(** Every pole is put half way between its ends, whose places are those given; other places stay. *)
Theorem C109_places locs conn :
  match add_pole_loc locs conn with
  | Ok l => (forall k, ~ In k (keys conn) -> dfind l k = dfind locs k) /\
            (forall pre k t h post, conn = pre ++ (k, (t, h)) :: post -> ~ In k (keys post) ->
               exists a b m, dfind locs t = Some a /\ dfind locs h = Some b /\ dfind l k = Some m /\
                 List.length m = Nat.min (List.length a) (List.length b) /\
                 forall i x y, nth_error a i = Some x -> nth_error b i = Some y -> exists z, nth_error m i = Some z /\ (z - x = y - z)%Qc)
  | Err e => e = KeyError /\ exists k t h, In (k, (t, h)) conn /\ (dfind locs t = None \/ dfind locs h = None)
  end.
Proof.
  unfold add_pole_loc.
  assert (G : forall rest l0,
    match foldM (fun l (pc : string * (string * string)) => a <- dget locs (fst (snd pc)) ;; b <- dget locs (snd (snd pc)) ;; Ok (dset l (fst pc) (midpoint a b))) rest l0 with
    | Ok l => (forall k, ~ In k (keys rest) -> dfind l k = dfind l0 k) /\
              (forall pre k t h post, rest = pre ++ (k, (t, h)) :: post -> ~ In k (keys post) -> exists a b, dfind locs t = Some a /\ dfind locs h = Some b /\ dfind l k = Some (midpoint a b))
    | Err e => e = KeyError /\ exists k t h, In (k, (t, h)) rest /\ (dfind locs t = None \/ dfind locs h = None)
    end).
  { induction rest as [|[k [t h]] rest IH]; intros l0; cbn [foldM fst snd].
    - split; [auto|]. intros [|] k t h post E; discriminate.
    - unfold dget at 1. destruct (dfind locs t) as [a|] eqn:Ea; cbn [bind]; [|split; [auto|]; exists k, t, h; cbn; auto].
      unfold dget at 1. destruct (dfind locs h) as [b|] eqn:Eb; cbn [bind]; [|split; [auto|]; exists k, t, h; cbn; auto].
      specialize (IH (dset l0 k (midpoint a b))). destruct (foldM _ rest _) as [l|e].
      + destruct IH as [I1 I2]. split.
        * intros x Hx. cbn in Hx. rewrite I1 by auto. rewrite dfind_dset. destruct (String.eqb_spec x k); [exfalso; auto|auto].
        * intros [|y pre] k' t' h' post E N; cbn in E; injection E as E1 E2.
          -- subst. exists a, b. split; [auto|]. split; [auto|]. rewrite I1 by auto. rewrite dfind_dset, String.eqb_refl. auto.
          -- apply (I2 pre k' t' h' post); auto.
      + destruct IH as (-> & k' & t' & h' & A & B). split; [auto|]. exists k', t', h'. cbn. auto. }
  specialize (G conn locs). destruct (foldM _ conn locs) as [l|e]; [|auto]. destruct G as [G1 G2]. split; [auto|].
  intros pre k t h post E N. destruct (G2 pre k t h post E N) as (a & b & A & B & C). exists a, b, (midpoint a b). split; [auto|]. split; [auto|]. split; [auto|].
  unfold midpoint. split; [rewrite map_length; apply combine_length|]. clear. revert b. induction a as [|x a IH]; intros [|y b] [|i] u w Hu Hw; cbn in *; try discriminate.
  - injection Hu as <-. injection Hw as <-. eexists. split; [reflexivity|]. assert (X : (Q2Qc (1 # 2) + Q2Qc (1 # 2) = 1)%Qc) by (apply Qc_is_canon; vm_compute; reflexivity).
    replace (Q2Qc (1 # 2) * (x + y))%Qc with (Q2Qc (1 # 2) * x + Q2Qc (1 # 2) * y)%Qc by ring.
    replace x with ((Q2Qc (1 # 2) + Q2Qc (1 # 2)) * x)%Qc at 2 by (rewrite X; ring). replace y with ((Q2Qc (1 # 2) + Q2Qc (1 # 2)) * y)%Qc at 2 by (rewrite X; ring). ring.
  - apply (IH b i); auto.
Qed.

(** two substations; the pole p5 is in paths of both *)
Definition po_p : dict (list (list string)) := [("s0", [["p0"; "p1"]; ["p2"; "p5"]]); ("s1", [["p4"; "p5"]])].
Definition po_h : dict (list string) := [("h1", ["p0"]); ("h2", ["p1"; "p5"]); ("h3", ["p2"]); ("h4", ["p4"])].
Example C109_ex :
  (forall pl, In pl ["p5"; "p1"; "p0"; "p4"; "p2"] -> (exists t, tail_of po_p po_h pl t) /\ (exists h, first_house po_h pl h)) /\
  get_pole_conn ["p5"; "p1"; "p0"; "p4"; "p2"] po_p po_h =
    Ok [("p5", ("h4", "h2")); ("p1", ("h1", "h2")); ("p0", ("s0", "h1")); ("p4", ("s1", "h4")); ("p2", ("s0", "h3"))] /\
  only_path po_p "s0" ["p0"; "p1"] /\ chain "s0" ["p0"; "p1"] (fun p => if String.eqb p "p0" then "h1" else "h2") = [("p0", ("s0", "h1")); ("p1", ("h1", "h2"))] /\
  (l <- add_pole_loc [("s0", [0%Qc; 0%Qc]); ("h1", [qz 4; qz 2])] [("p0", ("s0", "h1"))] ;; Ok (map (fun kv => (fst kv, map this (snd kv))) l)) =
    Ok [("s0", [0%Q; 0%Q]); ("h1", [4%Q; 2%Q]); ("p0", [2%Q; 1%Q])] /\
  add_pole_loc [("s0", [0%Qc; 0%Qc])] [("p0", ("s0", "h1"))] = Err KeyError.
Proof.
  assert (T : forall pl t t0, fold_left (tail_step po_h pl) po_p t0 = Some t -> True) by auto. clear T.
  split; [|do 1 (split; [vm_compute; reflexivity|])].
  - assert (F : forall pl h, house_of po_h pl = Some h -> first_house po_h pl h) by (intros pl h E; pose proof (house_of_spec po_h pl) as X; rewrite E in X; auto).
    intros pl Hpl. cbn in Hpl. destruct Hpl as [<-|[<-|[<-|[<-|[<-|[]]]]]].
    + split; [|exists "h2"; apply F; reflexivity]. exists "h4", "s1", ["p4"; "p5"]. split.
      * exists [("s0", [["p0"; "p1"]; ["p2"; "p5"]])], [["p4"; "p5"]], [], [], []. repeat split; cbn; auto.
      * right. exists [], "p4", []. split; [auto|]. split; [auto|]. split; [discriminate|]. apply F. reflexivity.
    + split; [|exists "h2"; apply F; reflexivity]. exists "h1", "s0", ["p0"; "p1"]. split.
      * exists [], [["p0"; "p1"]; ["p2"; "p5"]], [("s1", [["p4"; "p5"]])], [], [["p2"; "p5"]]. repeat split; cbn; auto. intros s l p [[= <- <-]|[]] [<-|[]] [X|[X|[]]]; discriminate.
      * right. exists [], "p0", []. split; [auto|]. split; [auto|]. split; [discriminate|]. apply F. reflexivity.
    + split; [|exists "h1"; apply F; reflexivity]. exists "s0", "s0", ["p0"; "p1"]. split.
      * exists [], [["p0"; "p1"]; ["p2"; "p5"]], [("s1", [["p4"; "p5"]])], [], [["p2"; "p5"]]. repeat split; cbn; auto. intros s l p [[= <- <-]|[]] [<-|[]] [X|[X|[]]]; discriminate.
      * left. exists ["p1"]. auto.
    + split; [|exists "h4"; apply F; reflexivity]. exists "s1", "s1", ["p4"; "p5"]. split.
      * exists [("s0", [["p0"; "p1"]; ["p2"; "p5"]])], [["p4"; "p5"]], [], [], []. repeat split; cbn; auto.
      * left. exists ["p5"]. auto.
    + split; [|exists "h3"; apply F; reflexivity]. exists "s0", "s0", ["p2"; "p5"]. split.
      * exists [], [["p0"; "p1"]; ["p2"; "p5"]], [("s1", [["p4"; "p5"]])], [["p0"; "p1"]], []. repeat split; cbn; auto.
        -- intros p [<-|[]] [X|[X|[]]]; discriminate.
        -- intros s l p [[= <- <-]|[]] [<-|[]] [X|[X|[]]]; discriminate.
      * left. exists ["p5"]. auto.
  - split; [|do 2 (split; [vm_compute; reflexivity|]); vm_compute; reflexivity].
    exists [], [["p0"; "p1"]; ["p2"; "p5"]], [("s1", [["p4"; "p5"]])], [], [["p2"; "p5"]]. split; [auto|]. split; [auto|].
    intros pl [<-|[<-|[]]]; (split; [intros p [<-|[]] [X|[X|[]]]; discriminate|intros s l p [[= <- <-]|[]] [<-|[]] [X|[X|[]]]; discriminate]).
Qed.
