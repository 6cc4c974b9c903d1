(** The rows of a pipe network say that the flows are a plan; consequences for the system function. *)
From Coq Require Import ZArith List String Bool Arith Lia QArith Qcanon.
From Verif Require Import Py PyFacts Num Vari VariFacts Brc SpecBrc BrcFacts McsFacts BnbDir TransFacts NetSys Flow SpecFlow Lp FlowFacts Pipe SpecPipe.
Import ListNotations.
Open Scope string_scope.
Open Scope Z_scope.
Open Scope list_scope.

(** * Entries of rows *)
Lemma set_nat_length r i a : List.length (set_nat r i a) = List.length r.
Proof. revert i. induction r as [|b r IH]; intros [|i]; cbn [set_nat List.length]; auto. Qed.
Lemma nth_set_nat r i a j : (i < List.length r)%nat -> nth j (set_nat r i a) 0%Qc = if (j =? i)%nat then a else nth j r 0%Qc.
Proof.
  revert i j. induction r as [|b r IH]; intros [|i] [|j] H; cbn [List.length set_nat nth] in *; try lia; auto. rewrite IH by lia. auto.
Qed.
Lemma dot_set r i a y : (i < List.length r)%nat -> dot (set_nat r i a) y = (dot r y + (a - nth i r 0) * nth i y 0)%Qc.
Proof.
  revert i y. induction r as [|b r IH]; intros [|i] [|y0 y] H; cbn [List.length set_nat nth dot] in *; try lia; try ring.
  rewrite IH by lia. ring.
Qed.
Lemma set_at_ok r i a : 0 <= i < Z.of_nat (List.length r) -> set_at r i a = Ok (set_nat r (Z.to_nat i) a).
Proof.
  intros H. unfold set_at. destruct (Z.ltb_spec i 0); [lia|]. destruct (Z.leb_spec 0 i); [|lia]. destruct (Z.ltb_spec i (Z.of_nat (List.length r))); [|lia]. auto.
Qed.
Lemma zeros_length n : List.length (zeros n) = n.
Proof. apply repeat_length. Qed.
Lemma nth_repeat (q : Qc) n j : nth j (repeat q n) 0%Qc = if (j <? n)%nat then q else 0%Qc.
Proof. revert j. induction n as [|n IH]; intros [|j]; cbn [repeat nth]; auto. rewrite IH. reflexivity. Qed.
Lemma nth_zeros n j : nth j (zeros n) 0%Qc = 0%Qc.
Proof. unfold zeros. rewrite nth_repeat. destruct (j <? n)%nat; auto. Qed.
Lemma dot_zeros n y : dot (zeros n) y = 0%Qc.
Proof. unfold zeros. revert y. induction n as [|n IH]; intros [|y0 y]; cbn [repeat dot]; auto. rewrite IH. ring. Qed.
Lemma dot_app a b y : dot (a ++ b) y = (dot a y + dot b (skipn (List.length a) y))%Qc.
Proof.
  revert y. induction a as [|a0 a IH]; intros [|y0 y]; cbn [app dot List.length skipn]; try ring.
  - rewrite dot_nil_r. ring.
  - rewrite IH. ring.
Qed.
Lemma dot_repeat q n y : List.length y = n -> dot (repeat q n) y = (q * qsum y)%Qc.
Proof. intros <-. induction y as [|y0 y IH]; cbn [List.length repeat dot qsum]; [ring|]. rewrite IH. ring. Qed.

Section Sets.
Context {A : Type} (n : nat) (h : A -> option (nat * Qc)) (step : list Qc -> A -> res (list Qc)).
Definition hits (l : list A) : list nat := flat_map (fun a => match h a with Some iv => [fst iv] | None => [] end) l.
Definition weighed (y : list Qc) (a : A) : Qc := match h a with Some iv => (snd iv * nth (fst iv) y 0)%Qc | None => 0%Qc end.
Lemma fold_sets l : forall r, List.length r = n ->
  (forall a r, In a l -> List.length r = n -> step r a = Ok (match h a with Some iv => set_nat r (fst iv) (snd iv) | None => r end)) ->
  (forall i, In i (hits l) -> (i < n)%nat /\ nth i r 0%Qc = 0%Qc) -> NoDup (hits l) ->
  exists r', foldM step l r = Ok r' /\ List.length r' = n /\ (forall j, ~ In j (hits l) -> nth j r' 0%Qc = nth j r 0%Qc) /\
    forall y, dot r' y = (dot r y + qsum (map (weighed y) l))%Qc.
Proof.
  induction l as [|a l IH]; intros r Lr Hs Hi N.
  - exists r. cbn. split; auto. split; auto. split; auto. intros y. ring.
  - cbn [foldM]. rewrite Hs by (auto; left; auto). cbn [bind]. unfold hits in *. cbn [flat_map] in *. fold (hits l) in *.
    cbn [map qsum]. unfold weighed at 1. destruct (h a) as [[i v]|] eqn:Ha; cbn [fst snd app] in *.
    + inversion N as [|? ? N1 N2]; subst. destruct (Hi i (or_introl eq_refl)) as [Li Zi].
      destruct (IH (set_nat r i v)) as (r' & E & L & O & D).
      * rewrite set_nat_length. auto.
      * intros; apply Hs; auto; right; auto.
      * intros j Hj. destruct (Hi j (or_intror Hj)) as [Lj Zj]. split; auto. rewrite nth_set_nat by lia.
        destruct (Nat.eqb_spec j i) as [->|]; auto. contradiction.
      * auto.
      * exists r'. split; auto. split; [auto|]. split.
        -- intros j Hj. rewrite O by (intros X; apply Hj; right; auto). rewrite nth_set_nat by lia. destruct (Nat.eqb_spec j i) as [->|]; auto. exfalso. apply Hj. left. auto.
        -- intros y. rewrite D, dot_set by lia. rewrite Zi. ring.
    + destruct (IH r) as (r' & E & L & O & D); auto; [intros; apply Hs; auto; right; auto|]. exists r'. split; auto. split; auto. split; auto.
      intros y. rewrite D. ring.
Qed.
End Sets.

(** * Rows that state a condition *)
Definition good (n : nat) (rows : list lrow) (Q : list Qc -> Prop) : Prop :=
  (forall r, In r rows -> List.length (fst (fst r)) = n) /\ forall y, List.length y = n -> (Forall (row_ok y) rows <-> Q y).
Lemma good_app n a b Q R : good n a Q -> good n b R -> good n (a ++ b) (fun y => Q y /\ R y).
Proof.
  intros [A1 A2] [B1 B2]. split; [intros r H; apply in_app_iff in H as [H|H]; auto|]. intros y L. rewrite Forall_app, A2, B2 by auto. tauto.
Qed.
Lemma good_nil n (Q : list Qc -> Prop) : (forall y, Q y) -> good n [] Q.
Proof. intros H. split; [intros r []|]. intros y _. split; auto. Qed.
Lemma good_ext n rows (Q R : list Qc -> Prop) : (forall y, List.length y = n -> (Q y <-> R y)) -> good n rows Q -> good n rows R.
Proof. intros H [A B]. split; auto. intros y L. rewrite B, H by auto. tauto. Qed.
Lemma good_concat {A} n (f : A -> res (list lrow)) (Q : A -> list Qc -> Prop) l : (forall a, In a l -> exists rows, f a = Ok rows /\ good n rows (Q a)) ->
  exists rs, mapM f l = Ok rs /\ good n (List.concat rs) (fun y => forall a, In a l -> Q a y).
Proof.
  induction l as [|a l IH]; intros H.
  - exists []. split; auto. apply good_nil. intros y a [].
  - destruct (H a (or_introl eq_refl)) as (r & E & G). destruct IH as (rs & E' & G'); [intros; apply H; right; auto|].
    exists (r :: rs). cbn [mapM]. rewrite E. cbn [bind]. rewrite E'. split; auto. cbn [List.concat].
    apply (good_ext n _ (fun y => Q a y /\ forall b, In b l -> Q b y)); [|apply good_app; auto].
    intros y _. split; [intros [X Y] b [<-|I]; auto|]. intros X. split; [apply X; left; auto|intros; apply X; right; auto].
Qed.
Lemma good_mapM {A} n (f : A -> res lrow) (Q : A -> list Qc -> Prop) l : (forall a, In a l -> exists row, f a = Ok row /\ good n [row] (Q a)) ->
  exists rs, mapM f l = Ok rs /\ good n rs (fun y => forall a, In a l -> Q a y).
Proof.
  induction l as [|a l IH]; intros H.
  - exists []. split; auto. apply good_nil. intros y a [].
  - destruct (H a (or_introl eq_refl)) as (r & E & G). destruct IH as (rs & E' & G'); [intros; apply H; right; auto|].
    exists (r :: rs). cbn [mapM]. rewrite E. cbn [bind]. rewrite E'. split; auto. change (r :: rs) with ([r] ++ rs).
    apply (good_ext n _ (fun y => Q a y /\ forall b, In b l -> Q b y)); [|apply good_app; auto].
    intros y _. split; [intros [X Y] b [<-|I]; auto|]. intros X. split; [apply X; left; auto|intros; apply X; right; auto].
Qed.
Lemma good_zero n a (f : list Qc -> Qc) : List.length a = n -> (forall y, List.length y = n -> dot a y = f y) -> good n [(a, 0%Qc, 0%Qc)] (fun y => f y = 0%Qc).
Proof.
  intros L H. split; [intros r [<-|[]]; auto|]. intros y Ly. split.
  - intros F. inversion F as [|? ? [F1 F2] _]; subst. cbn [fst snd] in *. rewrite H in * by auto. qc_lra.
  - intros E. constructor; [|constructor]. unfold row_ok. cbn [fst snd]. rewrite H, E by auto. split; qc_lra.
Qed.

Section Net.
Variables (edges : dict (string * string)) (es_idx : dict Z) (e2c : dict string) (depots : list (list string)) (varis : dict variable)
  (sub_nodes sub_edges : list (list string)).
Hypothesis W : wf_pipes edges es_idx e2c depots varis sub_nodes sub_edges.
Notation no_x := (List.length edges).
Notation orig := (nth 0 depots []).
Definition nd : nat := no_x + List.length (nth 0 depots []).
Notation n := nd.
Definition idx (e : string) : nat := match dfind es_idx e with Some i => Z.to_nat i | None => O end.
Definition x_of (y : list Qc) (e : string) : Qc := nth (idx e) y 0%Qc.

Lemma edge_at e : In e (keys edges) -> exists u v, dfind edges e = Some (u, v) /\ In (e, (u, v)) edges /\ ends edges e = (u, v) /\ u <> v /\
  dfind es_idx e = Some (Z.of_nat (idx e)) /\ (idx e < no_x)%nat /\ In u (keys varis) /\ In v (keys varis) /\
  dfind e2c e = Some (comp_of e2c e) /\ In (comp_of e2c e) (keys varis).
Proof.
  intros I. destruct W as (Nd & H & _). apply in_map_iff in I as ([e' [u v]] & <- & I). cbn [fst]. assert (F := In_dfind edges e' (u, v) Nd I).
  destruct (H _ _ _ I) as (D & U & V & (c & C1 & C2) & (i & I1 & I2)). exists u, v. unfold ends, idx, comp_of. rewrite F, I1, C1. rewrite Z2Nat.id by lia.
  repeat (split; auto). lia.
Qed.
Lemma idx_inj e e' : In e (keys edges) -> In e' (keys edges) -> idx e = idx e' -> e = e'.
Proof.
  intros I I' E. destruct (edge_at e I) as (_ & _ & _ & _ & _ & _ & X & _). destruct (edge_at e' I') as (_ & _ & _ & _ & _ & _ & X' & _).
  destruct W as (_ & _ & J & _). rewrite <- E in X'. apply (J e e' _ I I' X X').
Qed.
Lemma hits_nodup (h : string -> option (nat * Qc)) es : NoDup es -> incl es (keys edges) -> (forall e iv, In e es -> h e = Some iv -> fst iv = idx e) -> NoDup (hits h es).
Proof.
  intros N I H. induction es as [|e es IH]; [constructor|]. inversion N as [|? ? N1 N2]; subst. unfold hits. cbn [flat_map]. fold (hits h es).
  assert (X : NoDup (hits h es)) by (apply IH; auto; [intros z Hz; apply I; right; auto|intros z iv Hz; apply H; right; auto]).
  destruct (h e) as [iv|] eqn:E; cbn [app]; auto. constructor; auto. intros J. apply in_flat_map in J as (e' & J1 & J2).
  destruct (h e') as [iv'|] eqn:E'; [|destruct J2]. destruct J2 as [J2|[]]. apply N1. replace e with e'; auto.
  rewrite (H e iv (or_introl eq_refl) E), (H e' iv' (or_intror J1) E') in J2. apply idx_inj; auto; apply I; [right|left]; auto.
Qed.
Lemma hits_in (h : string -> option (nat * Qc)) es i : incl es (keys edges) -> (forall e iv, In e es -> h e = Some iv -> fst iv = idx e) -> In i (hits h es) -> (i < no_x)%nat.
Proof.
  intros I H J. apply in_flat_map in J as (e & J1 & J2). destruct (h e) as [iv|] eqn:E; [|destruct J2]. destruct J2 as [<-|[]].
  rewrite (H e iv J1 E). destruct (edge_at e) as (_ & _ & _ & _ & _ & _ & _ & X & _); auto.
Qed.

(** the two sums of a balance *)
Lemma balance_row nd0 es : NoDup es -> incl es (keys edges) -> exists a, foldM (balance_step nd0 edges es_idx) es (zeros n) = Ok a /\
  good n [(a, 0%Qc, 0%Qc)] (fun y => flow_out edges (x_of y) es nd0 = flow_in edges (x_of y) es nd0).
Proof.
  intros N I.
  set (h := fun e => if String.eqb (fst (ends edges e)) nd0 then Some (idx e, 1%Qc) else if String.eqb (snd (ends edges e)) nd0 then Some (idx e, (-(1))%Qc) else None).
  assert (Hh : forall e iv, In e es -> h e = Some iv -> fst iv = idx e).
  { intros e iv _. unfold h. destruct (String.eqb _ _); [|destruct (String.eqb _ _)]; intros X; inversion X; auto. }
  destruct (fold_sets n h (balance_step nd0 edges es_idx) es (zeros n)) as (a & E & L & _ & D).
  - apply zeros_length.
  - intros e r J Lr. destruct (edge_at e (I e J)) as (u & v & F & _ & En & _ & Ix & Lx & _). unfold balance_step, dget. rewrite F, Ix. cbn [bind fst snd].
    unfold h. rewrite En. cbn [fst snd]. destruct (String.eqb u nd0); [|destruct (String.eqb v nd0); auto]; rewrite set_at_ok, Nat2Z.id by (unfold nd in *; lia); auto.
  - intros i J. split; [|apply nth_zeros]. apply (hits_in h es i I Hh) in J. unfold nd. lia.
  - apply hits_nodup; auto.
  - exists a. split; auto. apply (good_ext n _ (fun y => qsum (map (weighed h y) es) = 0%Qc)).
    + intros y _. unfold flow_out, flow_in.
      assert (X : (qsum (map (weighed h y) es) + qsum (map (fun e => if String.eqb (snd (ends edges e)) nd0 then x_of y e else 0%Qc) es) =
        qsum (map (fun e => if String.eqb (fst (ends edges e)) nd0 then x_of y e else 0%Qc) es))%Qc).
      { rewrite <- qsum_map_plus. apply qsum_map_ext. intros e J. destruct (edge_at e (I e J)) as (u & v & _ & _ & En & Ne & _).
        unfold weighed, h, x_of. rewrite En. cbn [fst snd]. destruct (String.eqb_spec u nd0) as [->|]; cbn [fst snd].
        - destruct (String.eqb_spec v nd0); [congruence|]. ring.
        - destruct (String.eqb v nd0); cbn [fst snd]; ring. }
      rewrite <- X. split; [intros ->; ring|intros Z; qc_lra].
    + apply good_zero; auto. intros y _. rewrite D, dot_zeros. ring.
Qed.

Definition pos (o : string) : nat := match dfind (enum_dict (nth 0 depots [])) o with Some i => Z.to_nat i | None => O end.
Definition u_of (y : list Qc) (o : string) : Qc := nth (no_x + pos o) y 0%Qc.
Lemma enum_out l : forall k d o, ~ In o l -> dfind (fold_left (fun d ni => dset d (fst ni) (Z.of_nat (snd ni))) (combine l (seq k (List.length l))) d) o = dfind d o.
Proof.
  induction l as [|a l IH]; intros k d o H; auto. cbn [List.length seq combine fold_left fst snd]. rewrite IH by (intros X; apply H; right; auto).
  apply dfind_dset_neq. intros ->. apply H. left. auto.
Qed.
Lemma enum_at l : forall k d o i, NoDup l -> nth_error l i = Some o ->
  dfind (fold_left (fun d ni => dset d (fst ni) (Z.of_nat (snd ni))) (combine l (seq k (List.length l))) d) o = Some (Z.of_nat (k + i)).
Proof.
  induction l as [|a l IH]; intros k d o [|i] N E; try discriminate E; cbn [List.length seq combine fold_left fst snd nth_error] in *; inversion N as [|? ? N1 N2]; subst.
  - injection E as <-. rewrite enum_out by auto. rewrite dfind_dset_eq. f_equal. lia.
  - rewrite (IH (S k) _ o i N2 E). f_equal. lia.
Qed.
Lemma orig_nodup : NoDup orig.
Proof. destruct W as (_ & _ & _ & _ & L & H & _). apply H. apply nth_In. lia. Qed.
Lemma pos_at o i : nth_error orig i = Some o -> dfind (enum_dict orig) o = Some (Z.of_nat i) /\ pos o = i.
Proof.
  intros E. assert (X : dfind (enum_dict orig) o = Some (Z.of_nat i)) by (unfold enum_dict; rewrite (enum_at orig 0 [] o i orig_nodup E); auto).
  split; auto. unfold pos. rewrite X. apply Nat2Z.id.
Qed.
Lemma u_list y : List.length y = n -> map (u_of y) orig = skipn no_x y.
Proof.
  intros L. apply nth_ext with (d := 0%Qc) (d' := 0%Qc).
  - rewrite map_length, skipn_length. unfold nd in L. lia.
  - intros i Hi. rewrite map_length in Hi. destruct (nth_error orig i) as [o|] eqn:E; [|apply nth_error_None in E; lia].
    rewrite (nth_error_nth (map (u_of y) orig) i 0%Qc (x := u_of y o)) by (rewrite nth_error_map, E; auto).
    unfold u_of. rewrite (proj2 (pos_at o i E)). clear. revert y. induction (List.length edges) as [|k IH]; intros y; auto. destruct y as [|y0 y]; cbn [skipn nth plus]; auto. destruct i; auto.
Qed.

Lemma do_node_ok : exists rows, do_node orig (enum_dict orig) es_idx edges = Ok rows /\
  good n rows (fun y => forall o, In o orig -> flow_out edges (x_of y) (keys edges) o = u_of y o).
Proof.
  unfold do_node. apply good_mapM. intros o Io. apply In_nth_error in Io as [i Ei]. destruct (pos_at o i Ei) as [Fo Po].
  assert (Li : (i < List.length orig)%nat) by (apply nth_error_Some; congruence).
  unfold dget. rewrite Fo. cbn [bind]. fold nd. rewrite set_at_ok by (rewrite zeros_length; unfold nd; lia). cbn [bind].
  replace (Z.to_nat (Z.of_nat no_x + Z.of_nat i)) with (no_x + i)%nat by lia.
  set (h := fun e => if String.eqb (fst (ends edges e)) o then Some (idx e, 1%Qc) else None).
  assert (Hh : forall e iv, In e (keys edges) -> h e = Some iv -> fst iv = idx e).
  { intros e iv _. unfold h. destruct (String.eqb _ _); intros X; inversion X; auto. }
  set (step := fun (a : list Qc) (ep : string * (string * string)) => e_ind <- match dfind es_idx (fst ep) with Some v => Ok v | None => Err KeyError end ;;
    if String.eqb (fst (snd ep)) o then set_at a e_ind 1%Qc else Ok a).
  set (h2 := fun ep : string * (string * string) => h (fst ep)).
  assert (Hits : hits h2 edges = hits h (keys edges)).
  { unfold hits, h2, keys. rewrite flat_map_concat_map, flat_map_concat_map, map_map. auto. }
  destruct W as (Nd & _).
  destruct (fold_sets n h2 step edges (set_nat (zeros n) (no_x + i) (-(1))%Qc)) as (a & E & L & _ & D).
  - rewrite set_nat_length. apply zeros_length.
  - intros [e p] r J Lr. destruct (edge_at e) as (u & v & F & _ & En & _ & Ix & Lx & _); [apply in_map_iff; exists (e, p); auto|].
    assert (X := In_dfind edges e p Nd J). rewrite F in X. injection X as <-.
    unfold step, h2, h. cbn [fst snd]. rewrite Ix, En. cbn [bind fst snd]. destruct (String.eqb u o); auto. rewrite set_at_ok, Nat2Z.id by (unfold nd in *; lia). auto.
  - rewrite Hits. intros j J. apply (hits_in h (keys edges) j) in J; auto; [|intros z Hz; auto]. split; [unfold nd; lia|]. rewrite nth_set_nat by (rewrite zeros_length; unfold nd; lia).
    destruct (Nat.eqb_spec j (no_x + i)); [lia|apply nth_zeros].
  - rewrite Hits. apply hits_nodup; auto. intros z Hz; auto.
  - match goal with |- context [foldM ?f edges ?r] => change (foldM f edges r) with (foldM step edges (set_nat (zeros n) (no_x + i) (-(1))%Qc)) end. rewrite E. cbn [bind]. eexists. split; [reflexivity|].
    apply (good_ext n _ (fun y => (flow_out edges (x_of y) (keys edges) o - u_of y o)%Qc = 0%Qc)); [intros y _; split; intros; qc_lra|].
    apply good_zero; auto. intros y _. rewrite D, dot_set, dot_zeros, nth_zeros by (rewrite zeros_length; unfold nd; lia).
    unfold u_of. rewrite Po. unfold flow_out, keys. rewrite map_map.
    rewrite (qsum_map_ext (weighed h2 y) (fun ep => if String.eqb (fst (ends edges (fst ep))) o then x_of y (fst ep) else 0%Qc)); [ring|].
    intros ep _. unfold weighed, h2, h, x_of. destruct (String.eqb _ _); cbn [fst snd]; ring.
Qed.

(** * Stages *)
Lemma arrivals_sum w es now : NoDup now -> qsum (map (flow_in edges w es) now) = arrivals edges w es now.
Proof.
  intros N. unfold flow_in, arrivals. rewrite qsum_swap. apply qsum_map_ext. intros e _. destruct (in_dec string_dec (snd (ends edges e)) now) as [I|I].
  - apply qsum_one; auto.
  - apply qsum_map_zero. intros m Hm. destruct (String.eqb_spec (snd (ends edges e)) m) as [X|]; auto. rewrite X in I. contradiction.
Qed.
Definition arrive_step (m : string) (a : list Qc) (e : string) : res (list Qc) :=
  pair <- dget edges e ;; e_ind <- dget es_idx e ;; if String.eqb (snd pair) m then set_at a e_ind 1%Qc else Ok a.
Lemma arrive_fold es : NoDup es -> incl es (keys edges) -> forall now r, NoDup now -> List.length r = n ->
  (forall e, In e es -> In (snd (ends edges e)) now -> nth (idx e) r 0%Qc = 0%Qc) ->
  exists r', foldM (fun a m => foldM (arrive_step m) es a) now r = Ok r' /\ List.length r' = n /\
    forall y, dot r' y = (dot r y + qsum (map (flow_in edges (x_of y) es) now))%Qc.
Proof.
  intros N I. induction now as [|m now IH]; intros r Nn L Z.
  - exists r. cbn. split; auto. split; auto. intros y. ring.
  - inversion Nn as [|? ? N1 N2]; subst. cbn [foldM].
    set (h := fun e => if String.eqb (snd (ends edges e)) m then Some (idx e, 1%Qc) else None).
    assert (Hh : forall e iv, In e es -> h e = Some iv -> fst iv = idx e).
    { intros e iv _. unfold h. destruct (String.eqb _ _); intros X; inversion X; auto. }
    destruct (fold_sets n h (arrive_step m) es r) as (a & E & La & O & D); auto.
    + intros e r' J Lr. destruct (edge_at e (I e J)) as (u & v & F & _ & En & _ & Ix & Lx & _). unfold arrive_step, dget. rewrite F, Ix. cbn [bind fst snd].
      unfold h. rewrite En. cbn [fst snd]. destruct (String.eqb v m); auto. rewrite set_at_ok, Nat2Z.id by (unfold nd in *; lia). auto.
    + intros i J. assert (J' := J). apply (hits_in h es i I Hh) in J'. split; [unfold nd; lia|]. apply in_flat_map in J as (e & J1 & J2).
      destruct (h e) as [iv|] eqn:Ee; [|destruct J2]. destruct J2 as [<-|[]]. rewrite (Hh e iv J1 Ee). apply Z; auto. unfold h in Ee.
      destruct (String.eqb_spec (snd (ends edges e)) m) as [->|]; [left; auto|discriminate Ee].
    + apply hits_nodup; auto.
    + rewrite E. cbn [bind]. destruct (IH a N2 La) as (r' & E' & L' & D').
      * intros e J K. rewrite O; [apply Z; auto; right; auto|]. intros Q. apply in_flat_map in Q as (e' & J1 & J2). destruct (h e') as [iv|] eqn:Ee; [|destruct J2].
        destruct J2 as [J2|[]]. rewrite (Hh e' iv J1 Ee) in J2. apply idx_inj in J2; auto. subst e'. unfold h in Ee.
        destruct (String.eqb_spec (snd (ends edges e)) m) as [X|]; [|discriminate Ee]. rewrite X in K. contradiction.
      * exists r'. split; auto. split; auto. intros y. rewrite D', D. cbn [map qsum]. unfold flow_in at 2.
        rewrite (qsum_map_ext (weighed h y) (fun e => if String.eqb (snd (ends edges e)) m then x_of y e else 0%Qc)); [ring|].
        intros e _. unfold weighed, h, x_of. destruct (String.eqb _ _); cbn [fst snd]; ring.
Qed.
Lemma in_seq_combine {A} (l : list A) : forall k m a, In (m, a) (combine (seq k (List.length l)) l) <-> (k <= m)%nat /\ nth_error l (m - k) = Some a.
Proof.
  induction l as [|b l IH]; intros k m a; cbn [List.length seq combine].
  - split; [intros []|]. intros [_ H]. destruct (m - k)%nat; discriminate H.
  - cbn [In]. rewrite IH. split.
    + intros [E|[L E]]; [injection E as -> ->; rewrite Nat.sub_diag; split; auto|]. split; [lia|]. replace (m - k)%nat with (S (m - S k)) by lia. auto.
    + intros [L E]. destruct (Nat.eq_dec m k) as [->|D]; [left; rewrite Nat.sub_diag in E; injection E as ->; auto|right].
      split; [lia|]. replace (m - k)%nat with (S (m - S k)) in E by lia. auto.
Qed.
Lemma at_stage {A} (l : list (list A)) m : (m < List.length l)%nat -> py_index l (Z.of_nat m) = Ok (nth m l []) /\ In (nth m l []) l.
Proof.
  intros H. split; [|apply nth_In; auto]. destruct (nth_error l m) as [a|] eqn:E; [|apply nth_error_None in E; lia].
  rewrite (nth_error_nth l m [] E). apply py_index_nth. auto.
Qed.
Lemma foldM_ext {A B} (f g : B -> A -> res B) l : (forall a b, In a l -> f b a = g b a) -> forall b, foldM f l b = foldM g l b.
Proof.
  induction l as [|a l IH]; intros H b; auto. cbn [foldM]. rewrite (H a b) by (left; auto). destruct (g b a); auto. cbn [bind]. apply IH. intros; apply H; right; auto.
Qed.
Lemma mem_str_in a l : mem_str a l = true <-> In a l.
Proof. unfold mem_str. rewrite existsb_exists. split; [intros (b & I & E); apply String.eqb_eq in E as ->; auto|]. intros I. exists a. rewrite String.eqb_refl. auto. Qed.

Lemma do_sub_ok : exists rows, do_sub sub_nodes sub_edges edges es_idx depots n = Ok rows /\
  good n rows (fun y => forall m, (m < List.length sub_nodes)%nat ->
     (forall v, In v (nth m sub_nodes []) -> ~ In v (nth m depots []) -> ~ In v (nth (S m) depots []) ->
        flow_out edges (x_of y) (nth m sub_edges []) v = flow_in edges (x_of y) (nth m sub_edges []) v) /\
     arrivals edges (x_of y) (nth m sub_edges []) (nth (S m) depots []) = qsum (map (u_of y) orig)).
Proof.
  destruct W as (_ & _ & _ & Ls & Ld & Nn & Ne). unfold do_sub.
  match goal with |- exists rows, bind (mapM ?f ?l) _ = _ /\ _ =>
    assert (X : exists rs, mapM f l = Ok rs /\ good n (List.concat rs) (fun y => forall mn, In mn l ->
     (forall v, In v (snd mn) -> ~ In v (nth (fst mn) depots []) -> ~ In v (nth (S (fst mn)) depots []) ->
        flow_out edges (x_of y) (nth (fst mn) sub_edges []) v = flow_in edges (x_of y) (nth (fst mn) sub_edges []) v) /\
     arrivals edges (x_of y) (nth (fst mn) sub_edges []) (nth (S (fst mn)) depots []) = qsum (map (u_of y) orig))) end.
  { apply good_concat. intros [m ns] I. cbn [fst snd]. apply in_seq_combine in I as [_ I]. rewrite Nat.sub_0_r in I.
    assert (Lm : (m < List.length sub_nodes)%nat) by (apply nth_error_Some; congruence).
    destruct (at_stage depots m) as [D1 _]; [lia|]. destruct (at_stage depots (S m)) as [D2 I2]; [lia|]. destruct (at_stage sub_edges m) as [D3 I3]; [lia|].
    rewrite D1. cbn [bind]. replace (Z.of_nat m + 1) with (Z.of_nat (S m)) by lia. rewrite D2. cbn [bind].
    destruct (Ne _ I3) as [Ne1 Ne2]. set (es := nth m sub_edges []) in *. set (now := nth (S m) depots []) in *. set (prev := nth m depots []) in *.
    match goal with |- exists rows, bind (mapM ?f ?l) _ = _ /\ _ =>
      assert (X : exists rs, mapM f l = Ok rs /\ good n (List.concat rs) (fun y => forall v, In v l -> ~ In v prev -> ~ In v now ->
        flow_out edges (x_of y) es v = flow_in edges (x_of y) es v)) end.
    { apply good_concat. intros v Iv. destruct (mem_str v prev) eqn:M1; [|destruct (mem_str v now) eqn:M2]; cbn [negb andb].
      - exists []. split; auto. apply good_nil. intros y A. apply mem_str_in in M1. contradiction.
      - exists []. split; auto. apply good_nil. intros y _ A. apply mem_str_in in M2. contradiction.
      - rewrite D3. cbn [bind]. destruct (balance_row v es Ne1 Ne2) as (a & E & G). rewrite E. cbn [bind]. exists [(a, 0%Qc, 0%Qc)]. split; auto.
        apply (good_ext n _ (fun y => flow_out edges (x_of y) es v = flow_in edges (x_of y) es v)); auto. intros y _. split; auto. intros H. apply H; intros Q; apply mem_str_in in Q; congruence. }
    destruct X as (rs & E & G). rewrite E. cbn [bind].
    match goal with |- context [foldM ?f now ?r] => assert (X : foldM f now r = foldM (fun a m => foldM (arrive_step m) es a) now r) end.
    { apply foldM_ext. intros a b _. rewrite D3. cbn [bind]. reflexivity. }
    rewrite X. clear X. replace (n - no_x)%nat with (List.length orig) by (unfold nd; lia).
    destruct (arrive_fold es Ne1 Ne2 now (zeros no_x ++ repeat (-(1))%Qc (List.length orig))) as (a & Ea & La & Da).
    - auto.
    - rewrite app_length, zeros_length, repeat_length. auto.
    - intros e J _. destruct (edge_at e (Ne2 e J)) as (_ & _ & _ & _ & _ & _ & _ & Lx & _). rewrite app_nth1 by (rewrite zeros_length; auto). apply nth_zeros.
    - rewrite Ea. cbn [bind]. eexists. split; [reflexivity|]. apply good_app; auto.
      apply (good_ext n _ (fun y => (arrivals edges (x_of y) es now - qsum (map (u_of y) orig))%Qc = 0%Qc)); [intros y _; split; intros; qc_lra|].
      apply good_zero; auto. intros y Ly. rewrite Da, dot_app, dot_zeros, zeros_length, arrivals_sum by auto. rewrite dot_repeat.
      + rewrite u_list by auto. ring.
      + rewrite skipn_length, Ly. unfold nd. lia. }
  destruct X as (rs & E & G). rewrite E. cbn [bind]. eexists. split; [reflexivity|].
  eapply good_ext; [|exact G]. intros y _. cbv beta. split.
  - intros H m Lm. destruct (nth_error sub_nodes m) as [ns|] eqn:En; [|apply nth_error_None in En; lia].
    rewrite (nth_error_nth sub_nodes m [] En). apply (H (m, ns)). apply in_seq_combine. rewrite Nat.sub_0_r. split; [lia|auto].
  - intros H [m ns] I. apply in_seq_combine in I as [_ I]. rewrite Nat.sub_0_r in I. cbn [fst snd].
    assert (Lm : (m < List.length sub_nodes)%nat) by (apply nth_error_Some; congruence). specialize (H m Lm). rewrite (nth_error_nth sub_nodes m [] I) in H. auto.
Qed.

Lemma do_incoming_ok : exists rows, do_incoming (List.length sub_nodes) depots n edges es_idx = Ok rows /\
  good n rows (fun y => forall m v, (1 <= m < List.length sub_nodes)%nat -> In v (nth m depots []) ->
     flow_out edges (x_of y) (keys edges) v = flow_in edges (x_of y) (keys edges) v).
Proof.
  destruct W as (Nd & _ & _ & Ls & Ld & Nn & Ne). unfold do_incoming.
  match goal with |- exists rows, bind (mapM ?f ?l) _ = _ /\ _ =>
    assert (X : exists rs, mapM f l = Ok rs /\ good n (List.concat rs) (fun y => forall m, In m l -> forall v, In v (nth m depots []) ->
     flow_out edges (x_of y) (keys edges) v = flow_in edges (x_of y) (keys edges) v)) end.
  { apply good_concat. intros m I. apply in_seq in I. destruct (at_stage depots m) as [D1 _]; [lia|]. rewrite D1. cbn [bind].
    apply good_mapM. intros v _. destruct (balance_row v (keys edges) Nd) as (a & E & G); [intros z Hz; auto|]. rewrite E. cbn [bind]. eexists. split; [reflexivity|auto]. }
  destruct X as (rs & E & G). rewrite E. cbn [bind]. eexists. split; [reflexivity|].
  eapply good_ext; [|exact G]. intros y _. cbv beta. split.
  - intros H m v Lm. apply H. apply in_seq. lia.
  - intros H m Lm v. apply in_seq in Lm. apply H. lia.
Qed.

(** * Capacities *)
Hypothesis Hc : caps_ok varis.
Hypothesis Hv : wf_varis varis.
Lemma coord_at x k : In x (space (comps_of varis)) -> In k (keys varis) -> dfind x k = Some (coord x k) /\ In (k, coord x k) x.
Proof.
  intros Hx I. destruct (space_states varis x Hv Hx) as [_ K]. rewrite <- K in I. apply in_map_iff in I as ([k' s] & <- & I). cbn [fst].
  assert (N : NoDup (keys x)) by (rewrite K; apply Hv). assert (E := In_dfind x k' s N I). unfold coord. rewrite E. auto.
Qed.
Lemma do_capacity_ok x : In x (space (comps_of varis)) -> exists rows, do_capacity edges e2c varis x es_idx n = Ok rows /\
  good n rows (fun y => forall e, In e (keys edges) -> (0 <= x_of y e)%Qc /\ (x_of y e <= pipe_cap edges e2c varis x e)%Qc).
Proof.
  intros Hx. unfold do_capacity.
  match goal with |- exists rows, mapM ?f ?l = _ /\ _ =>
    assert (X : exists rs, mapM f l = Ok rs /\ good n rs (fun y => forall ep, In ep l -> (0 <= x_of y (fst ep))%Qc /\ (x_of y (fst ep) <= pipe_cap edges e2c varis x (fst ep))%Qc)) end.
  { apply good_mapM. intros [e p] J. assert (Ie : In e (keys edges)) by (apply in_map_iff; exists (e, p); auto).
    destruct (edge_at e Ie) as (u & v & F & _ & En & _ & Ix & Lx & Iu & Iv & C1 & C2). destruct W as (Nd & _).
    assert (X := In_dfind edges e p Nd J). rewrite F in X. injection X as <-. cbn [fst snd].
    destruct (coord_at x _ Hx C2) as [Fc Ic]. destruct (coord_at x u Hx Iu) as [Fu _]. destruct (coord_at x v Hx Iv) as [Fv _].
    destruct (comp_state varis Hc Hv x _ _ Hx Ic) as (vr & cs & Ev & Ec & Ls & Nc & Pc).
    unfold dget. rewrite C1. cbn [bind]. rewrite Ev. cbn [bind]. rewrite Fc. cbn [bind]. rewrite Ec.
    assert (P : py_index (map VNum cs) (coord x (comp_of e2c e)) = Ok (VNum (cap varis (comp_of e2c e) (coord x (comp_of e2c e))))).
    { revert Nc. set (c := cap _ _ _). clearbody c. generalize dependent (coord x (comp_of e2c e)). intros s _ _ Ls _ Nc.
      rewrite <- (Z2Nat.id s) by lia. apply py_index_nth. rewrite nth_error_map, Nc. auto. }
    rewrite P.
    cbn [bind num]. rewrite Fu. cbn [bind].
    assert (R : exists b, (if coord x u =? 0 then Ok true else (s1 <- match dfind x v with Some a => Ok a | None => Err KeyError end;; Ok (s1 =? 0))) = Ok b /\
      b = (coord x u =? 0) || (coord x v =? 0)). { rewrite Fv. destruct (coord x u =? 0); cbn [bind orb]; eauto. }
    destruct R as (b & R & Eb). rewrite R. cbn [bind]. rewrite Ix. cbn [bind]. rewrite set_at_ok, Nat2Z.id by (rewrite zeros_length; unfold nd; lia). cbn [bind].
    eexists. split; [reflexivity|]. split; [intros r [<-|[]]; cbn [fst]; rewrite set_nat_length; apply zeros_length|].
    intros y Ly.
    assert (Dt : dot (set_nat (zeros n) (idx e) 1%Qc) y = x_of y e). { rewrite dot_set, dot_zeros, nth_zeros by (rewrite zeros_length; unfold nd; lia). unfold x_of. ring. }
    assert (Cp : (if b then 0%Qc else cap varis (comp_of e2c e) (coord x (comp_of e2c e))) = pipe_cap edges e2c varis x e). { unfold pipe_cap. rewrite En, Eb. auto. }
    rewrite Cp. split.
    - intros Q. inversion Q as [|? ? [Q1 Q2] _]; subst. cbn [fst snd] in *. rewrite Dt in *. auto.
    - intros [Q1 Q2]. constructor; [|constructor]. unfold row_ok. cbn [fst snd]. rewrite Dt. auto. }
  destruct X as (rs & E & G). exists rs. split; auto. eapply good_ext; [|exact G]. intros y _. cbv beta. split.
  - intros H e Ie. apply in_map_iff in Ie as ([e' p] & <- & I). apply (H (e', p) I).
  - intros H [e p] I. apply H. apply in_map_iff. exists (e, p). auto.
Qed.

(** * Points of the program are plans *)
Notation capx x := (pipe_cap edges e2c varis x).
Notation planx x := (plan edges depots sub_nodes sub_edges (pipe_cap edges e2c varis x)).
Lemma flow_ext w w' es v : (forall e, In e es -> w e = w' e) -> flow_out edges w es v = flow_out edges w' es v /\ flow_in edges w es v = flow_in edges w' es v.
Proof. intros H. split; apply qsum_map_ext; intros e I; destruct (String.eqb _ _); auto. Qed.
Lemma plan_ext c w w' u u' : (forall e, In e (keys edges) -> w e = w' e) -> (forall o, In o orig -> u o = u' o) ->
  plan edges depots sub_nodes sub_edges c w u -> plan edges depots sub_nodes sub_edges c w' u'.
Proof.
  intros H H' (A & B & C & D). destruct W as (Nd & _ & _ & Ls & Ld & Nn & Ne). split; [|split; [|split]].
  - intros e I. rewrite <- H by auto. auto.
  - intros o I. rewrite <- H' by auto. rewrite <- B by auto. symmetry. apply (flow_ext w w'). auto.
  - intros m Lm. destruct (at_stage sub_edges m) as [_ I3]; [lia|]. destruct (Ne _ I3) as [_ I4]. destruct (C m Lm) as [C1 C2].
    assert (X : forall e, In e (nth m sub_edges []) -> w e = w' e) by auto. split.
    + intros v V1 V2 V3. destruct (flow_ext w w' _ v X) as [<- <-]. auto.
    + rewrite <- (qsum_map_ext u u' orig H'), <- C2. apply qsum_map_ext. intros e I. destruct (in_dec _ _ _); auto. symmetry. auto.
  - intros m v Lm Iv. destruct (flow_ext w w' (keys edges) v H) as [<- <-]. eauto.
Qed.

Lemma rows_ok x : In x (space (comps_of varis)) -> exists r1 r2 r3 r4, do_node orig (enum_dict orig) es_idx edges = Ok r1 /\
  do_sub sub_nodes sub_edges edges es_idx depots n = Ok r2 /\ do_incoming (List.length sub_nodes) depots n edges es_idx = Ok r3 /\
  do_capacity edges e2c varis x es_idx n = Ok r4 /\ good n (r1 ++ r2 ++ r3 ++ r4) (fun y => planx x (x_of y) (u_of y)).
Proof.
  intros Hx. destruct do_node_ok as (r1 & E1 & G1). destruct do_sub_ok as (r2 & E2 & G2). destruct do_incoming_ok as (r3 & E3 & G3). destruct (do_capacity_ok x Hx) as (r4 & E4 & G4).
  exists r1, r2, r3, r4. do 4 (split; auto). eapply good_ext; [|apply (good_app _ _ _ _ _ G1 (good_app _ _ _ _ _ G2 (good_app _ _ _ _ _ G3 G4)))].
  intros y _. cbv beta. unfold plan. tauto.
Qed.

Lemma zq_plus a b : (zq a + zq b)%Qc = zq (a + b).
Proof. unfold zq. apply Qc_is_canon. change (Qred (Qred (inject_Z a) + Qred (inject_Z b)) == Qred (inject_Z (a + b)))%Q. rewrite (Qred_correct (inject_Z (a + b))), (Qred_correct (_ + _)), (Qred_correct (inject_Z a)), (Qred_correct (inject_Z b)), inject_Z_plus. reflexivity. Qed.
Lemma zq0 : zq 0 = 0%Qc.
Proof. apply Qc_is_canon. reflexivity. Qed.
Lemma qsum_int {A} (f : A -> Qc) l : (forall a, In a l -> exists z, f a = zq z) -> exists z, qsum (map f l) = zq z.
Proof.
  induction l as [|a l IH]; intros H; [exists 0; rewrite zq0; auto|]. destruct (H a (or_introl eq_refl)) as [z E]. destruct IH as [z' E']; [intros; apply H; right; auto|].
  exists (z + z'). cbn [map qsum]. rewrite E, E', zq_plus. auto.
Qed.
Lemma ints y : (forall a, In a y -> exists z, a = zq z) -> exists z, y = map zq z.
Proof.
  induction y as [|a y IH]; intros H; [exists []; auto|]. destruct (H a (or_introl eq_refl)) as [z ->]. destruct IH as [zs ->]; [intros; apply H; right; auto|]. exists (z :: zs). auto.
Qed.

Definition y_of (w u : string -> Qc) : list Qc :=
  map (fun j => match find (fun e => (idx e =? j)%nat) (keys edges) with Some e => w e | None => 0%Qc end) (seq 0 no_x) ++ map u orig.
Lemma y_of_length w u : List.length (y_of w u) = n.
Proof. unfold y_of. rewrite app_length, !map_length, seq_length. auto. Qed.
Lemma x_of_y w u e : In e (keys edges) -> x_of (y_of w u) e = w e.
Proof.
  intros I. destruct (edge_at e I) as (_ & _ & _ & _ & _ & _ & _ & Lx & _). unfold x_of, y_of. rewrite app_nth1 by (rewrite map_length, seq_length; auto).
  rewrite (nth_error_nth _ _ 0%Qc (x := match find (fun e' => (idx e' =? idx e)%nat) (keys edges) with Some e => w e | None => 0%Qc end)).
  - destruct (find _ _) as [e'|] eqn:F.
    + apply find_some in F as [J K]. apply Nat.eqb_eq in K. rewrite (idx_inj e' e); auto.
    + apply find_none with (x := e) in F; auto. cbv beta in F. rewrite Nat.eqb_refl in F. discriminate F.
  - rewrite nth_error_map. rewrite (nth_error_nth' (seq 0 no_x) 0%nat) by (rewrite seq_length; auto). rewrite seq_nth by auto. reflexivity.
Qed.
Lemma u_of_y w u o : In o orig -> u_of (y_of w u) o = u o.
Proof.
  intros I. apply In_nth_error in I as [i E]. destruct (pos_at o i E) as [_ P]. unfold u_of, y_of. rewrite P, app_nth2; rewrite map_length, seq_length; [|lia].
  replace (no_x + i - no_x)%nat with i by lia. apply nth_error_nth. rewrite nth_error_map, E. auto.
Qed.
Lemma y_of_in (P : Qc -> Prop) w u : P 0%Qc -> (forall e, In e (keys edges) -> P (w e)) -> (forall o, In o orig -> P (u o)) -> forall a, In a (y_of w u) -> P a.
Proof.
  intros P0 Pw Pu a I. apply in_app_iff in I as [I|I]; apply in_map_iff in I as (j & <- & J); auto. destruct (find _ _) as [e|] eqn:F; auto. apply find_some in F as [F _]. auto.
Qed.
Definition cost : list Qc := zeros no_x ++ repeat (-(1))%Qc (List.length orig).
Lemma cost_length : List.length cost = n.
Proof. unfold cost. rewrite app_length, zeros_length, repeat_length. auto. Qed.
Lemma cost_value y : List.length y = n -> dot cost y = (- plan_value depots (u_of y))%Qc.
Proof.
  intros L. unfold cost, plan_value. rewrite dot_app, dot_zeros, zeros_length, dot_repeat by (rewrite skipn_length, L; unfold nd; lia). rewrite u_list by auto. ring.
Qed.
Lemma pipe_cap_pos x e : In x (space (comps_of varis)) -> In e (keys edges) -> (0 <= capx x e)%Qc.
Proof.
  intros Hx I. destruct (edge_at e I) as (u & v & F & _ & En & _ & Ix & Lx & Iu & Iv & C1 & C2). unfold pipe_cap. destruct (_ || _); [apply Qcle_refl|].
  destruct (coord_at x _ Hx C2) as [_ Ic]. destruct (comp_state varis Hc Hv x _ _ Hx Ic) as (_ & _ & _ & _ & _ & _ & P). auto.
Qed.
Lemma zero_plan x : In x (space (comps_of varis)) -> planx x (fun _ => 0%Qc) (fun _ => 0%Qc).
Proof.
  intros Hx. assert (Z1 : forall es v, flow_out edges (fun _ => 0%Qc) es v = 0%Qc) by (intros; apply qsum_map_zero; intros; destruct (String.eqb _ _); auto).
  assert (Z2 : forall es v, flow_in edges (fun _ => 0%Qc) es v = 0%Qc) by (intros; apply qsum_map_zero; intros; destruct (String.eqb _ _); auto).
  split; [|split; [|split]].
  - intros e I. split; [apply Qcle_refl|apply pipe_cap_pos; auto].
  - intros o _. apply Z1.
  - intros m _. split; [intros; rewrite Z1, Z2; auto|]. unfold arrivals. rewrite !qsum_map_zero; auto. intros e _. destruct (in_dec _ _ _); auto.
  - intros. rewrite Z1, Z2. auto.
Qed.
Lemma u_int c w u : plan edges depots sub_nodes sub_edges c w u -> integral edges w -> forall o, In o orig -> (0 <= u o)%Qc /\ exists z, u o = zq z.
Proof.
  intros (A & B & _) I o Io. rewrite <- (B o Io). split.
  - apply qsum_nonneg. intros a J. apply in_map_iff in J as (e & <- & J). destruct (String.eqb _ _); [apply A; auto|apply Qcle_refl].
  - apply qsum_int. intros e J. destruct (String.eqb _ _); [apply I; auto|exists 0; rewrite zq0; auto].
Qed.
Lemma plan_point x rows w u : good n rows (fun y => planx x (x_of y) (u_of y)) -> planx x w u -> integral edges w ->
  exists z, feasible n rows (map zq z) /\ dot cost (map zq z) = (- plan_value depots u)%Qc.
Proof.
  intros [_ G] P I. assert (U := u_int _ w u P I).
  destruct (ints (y_of w u)) as [z Ez].
  { apply (y_of_in (fun a => exists z, a = zq z)); [exists 0; rewrite zq0; auto|auto|intros o Io; apply (U o Io)]. }
  exists z. rewrite <- Ez. split; [split; [apply y_of_length|split]|].
  - apply (y_of_in (fun a => (0 <= a)%Qc)); [apply Qcle_refl|intros e J; apply P; auto|intros o Io; apply (U o Io)].
  - apply G; [apply y_of_length|]. apply (plan_ext _ w _ u); auto; intros; symmetry; [apply x_of_y|apply u_of_y]; auto.
  - rewrite cost_value by apply y_of_length. f_equal. apply qsum_map_ext. intros. apply u_of_y. auto.
Qed.
Lemma qsum_le_one {A} (f : A -> Qc) l a : (forall b, In b l -> (0 <= f b)%Qc) -> In a l -> (f a <= qsum (map f l))%Qc.
Proof.
  induction l as [|b l IH]; intros H I; [destruct I|]. cbn [map qsum]. assert (Hb := H b (or_introl eq_refl)).
  assert (X : (0 <= qsum (map f l))%Qc). { apply qsum_nonneg. intros c J. apply in_map_iff in J as (d & <- & J). apply H. right. auto. }
  destruct I as [->|I]; [qc_lra|]. assert (Y := IH (fun c J => H c (or_intror J)) I). qc_lra.
Qed.
Lemma idx_onto j : (j < no_x)%nat -> exists e, In e (keys edges) /\ idx e = j.
Proof.
  intros L. assert (X : incl (seq 0 no_x) (map idx (keys edges))).
  { apply NoDup_length_incl.
    - destruct W as (Nd & _). assert (Y : forall l, NoDup l -> incl l (keys edges) -> NoDup (map idx l)).
      { induction l as [|e l IH]; intros N I; [constructor|]. inversion N as [|? ? N1 N2]; subst. cbn [map]. constructor; [|apply IH; auto; intros z Hz; apply I; right; auto].
        intros J. apply in_map_iff in J as (e' & E & J). apply N1. rewrite <- (idx_inj e' e); auto; apply I; [right|left]; auto. }
      apply Y; auto. intros z Hz; auto.
    - rewrite map_length. unfold keys. rewrite map_length, seq_length. auto.
    - intros i I. apply in_map_iff in I as (e & <- & I). apply in_seq. destruct (edge_at e I) as (_ & _ & _ & _ & _ & _ & _ & Lx & _). lia. }
  destruct (proj1 (in_map_iff idx (keys edges) j)) as (e & E & I); [apply X; apply in_seq; lia|]. eauto.
Qed.
Lemma program_bounded x rows y : good n rows (fun y => planx x (x_of y) (u_of y)) -> feasible n rows y ->
  forall a, In a y -> (a <= qsum (map (capx x) (keys edges)))%Qc.
Proof.
  intros [_ G] (L & Pos & F) a I. apply G in F as (A & B & _); auto.
  assert (C0 : forall e, In e (keys edges) -> (0 <= capx x e)%Qc) by (intros e J; apply Qcle_trans with (x_of y e); apply A; auto).
  apply (In_nth _ _ 0%Qc) in I as (j & Lj & <-). destruct (Nat.lt_ge_cases j no_x) as [J|J].
  - destruct (idx_onto j J) as (e & Ie & <-). change (nth (idx e) y 0%Qc) with (x_of y e). apply Qcle_trans with (capx x e); [apply A; auto|]. apply qsum_le_one; auto.
  - destruct (nth_error orig (j - no_x)) as [o|] eqn:E; [|apply nth_error_None in E; unfold nd in L; lia].
    destruct (pos_at o _ E) as [_ P]. assert (Io := nth_error_In _ _ E). specialize (B o Io). unfold u_of in B. rewrite P in B. replace (no_x + (j - no_x))%nat with j in B by lia.
    rewrite <- B. apply qsum_map_le. intros e Ie. destruct (String.eqb _ _); [apply A|]; auto.
Qed.

(** * The system function *)
Variable milp : list Qc -> list lrow -> option (Qc * list Qc).
Hypothesis Hm : milp_ok milp.
Lemma run_pipes_ok x : In x (space (comps_of varis)) -> exists y, run_pipes_fun milp x edges es_idx e2c depots varis sub_nodes sub_edges = Ok (Some ((- plan_value depots (u_of y))%Qc, y)) /\
  List.length y = n /\ planx x (x_of y) (u_of y) /\ integral edges (x_of y) /\ forall w u, planx x w u -> integral edges w -> (plan_value depots u <= plan_value depots (u_of y))%Qc.
Proof.
  intros Hx. destruct (rows_ok x Hx) as (r1 & r2 & r3 & r4 & E1 & E2 & E3 & E4 & G).
  destruct (Hm cost (r1 ++ r2 ++ r3 ++ r4)) as (z & E & F & M).
  - rewrite cost_length. apply G.
  - rewrite cost_length. exists (qsum (map (capx x) (keys edges))). intros y. apply program_bounded; auto.
  - rewrite cost_length. destruct (plan_point x (r1 ++ r2 ++ r3 ++ r4) _ _ G (zero_plan x Hx)) as (z & F & _); [intros e _; exists 0; rewrite zq0; auto|eauto].
  - rewrite cost_length in *. assert (F' := F). destruct F' as (L & _ & R). exists (map zq z). split; [|split; [auto|split; [apply G; auto|split]]].
    + unfold run_pipes_fun. destruct W as (_ & _ & _ & _ & Ld & _). destruct (at_stage depots 0) as [D0 _]; [lia|]. change 0 with (Z.of_nat 0) at 1. rewrite D0. cbn [bind].
      assert (X : exists l, py_index depots (-1) = Ok l).
      { unfold py_index. cbv zeta. change (-1 <? 0) with true. cbv iota. destruct (nth_error depots (Z.to_nat (-1 + Z.of_nat (List.length depots)))) as [l|] eqn:El; [|apply nth_error_None in El; lia].
        exists l. destruct (Z.leb_spec 0 (-1 + Z.of_nat (List.length depots))); [|lia]. destruct (Z.ltb_spec (-1 + Z.of_nat (List.length depots)) (Z.of_nat (List.length depots))); [|lia]. auto. }
      destruct X as (l & ->). cbn [bind]. fold nd. rewrite E1. cbn [bind]. rewrite E2. cbn [bind]. rewrite E3. cbn [bind]. rewrite E4. cbn [bind].
      fold cost. rewrite E, cost_value by auto. auto.
    + intros e _. unfold x_of. destruct (nth_in_or_default (idx e) (map zq z) 0%Qc) as [I|Eq]; [|exists 0; rewrite zq0; auto]. apply in_map_iff in I as (a & <- & _). eauto.
    + intros w u P I. destruct (plan_point x _ w u G P I) as (z' & F' & D'). specialize (M z' F'). rewrite D', cost_value in M by auto. qc_lra.
Qed.

Definition inv (x d : dict Z) (P : string -> Prop) : Prop := NoDup (keys d) /\ forall k z, dfind d k = Some z <-> dfind x k = Some z /\ P k.
Lemma put_new_ok x d P k : inv x d P -> (exists s, dfind x k = Some s) -> exists d', put_new x d k = Ok d' /\ inv x d' (fun k' => P k' \/ k' = k).
Proof.
  intros [N H] [s E]. unfold put_new. destruct (dfind d k) as [z|] eqn:F.
  - exists d. split; auto. split; auto. intros k' z'. rewrite H. split; [tauto|]. intros [A [B| ->]]; auto. split; auto. apply H in F. tauto.
  - unfold dget. rewrite E. cbn [bind]. eexists. split; [reflexivity|]. split; [apply dset_nodup; auto|]. intros k' z'. rewrite dfind_dset_if. destruct (String.eqb_spec k' k) as [->|D].
    + split; [intros X; injection X as <-; auto|]. intros [A _]. rewrite <- A, E. auto.
    + rewrite H. split; [tauto|]. intros [A [B|B]]; auto. congruence.
Qed.
Lemma inv_ext x d (P Q : string -> Prop) : (forall k, P k <-> Q k) -> inv x d P -> inv x d Q.
Proof. intros H [N I]. split; auto. intros k z. rewrite I, H. tauto. Qed.

Variable thres : Qc.
Lemma pipes_ok x : In x (space (comps_of varis)) -> exists val s m w u, sys_fun_pipes milp x thres edges es_idx e2c depots varis sub_nodes sub_edges = Ok (val, s, m) /\
  planx x w u /\ integral edges w /\ plan_value depots u = val /\ (forall w' u', planx x w' u' -> integral edges w' -> (plan_value depots u' <= val)%Qc) /\
  ((s = F_ /\ (val < thres)%Qc /\ m = None) \/ (s = S_ /\ (thres <= val)%Qc /\ exists r, m = Some r /\ names_used edges e2c x w r)).
Proof.
  intros Hx. destruct (run_pipes_ok x Hx) as (y & E & L & P & I & M). unfold sys_fun_pipes. rewrite E. cbn [bind].
  replace (- - plan_value depots (u_of y))%Qc with (plan_value depots (u_of y)) by ring. set (val := plan_value depots (u_of y)) in *.
  destruct (qc_ltb val thres) eqn:C.
  - exists val, F_, None, (x_of y), (u_of y). apply qc_ltb_lt in C. repeat (split; auto).
  - apply qc_ltb_ge in C.
    match goal with |- context [foldM ?f edges []] => set (step := f) end.
    assert (X : forall l, incl l edges -> forall d Q, inv x d Q -> exists d', foldM step l d = Ok d' /\
      inv x d' (fun k => Q k \/ exists e, In e (keys l) /\ (0 < x_of y e)%Qc /\ (k = comp_of e2c e \/ k = fst (ends edges e) \/ k = snd (ends edges e)))).
    { induction l as [|[e p] l IH]; intros Il d Q Iv.
      - exists d. split; auto. apply (inv_ext x d Q); auto. intros k. split; auto. intros [H|(e & [] & _)]; auto.
      - assert (Ip : In (e, p) edges) by (apply Il; left; auto). assert (Ie : In e (keys edges)) by (apply in_map_iff; exists (e, p); auto).
        destruct (edge_at e Ie) as (u & v & F & _ & En & _ & Ix & Lx & Iu & Ivv & C1 & C2). destruct W as (Nd & _).
        assert (Y := In_dfind edges e p Nd Ip). rewrite F in Y. injection Y as <-.
        assert (S : exists d1, step d (e, (u, v)) = Ok d1 /\ inv x d1 (fun k => Q k \/ ((0 < x_of y e)%Qc /\ (k = comp_of e2c e \/ k = u \/ k = v)))).
        { unfold step. cbn [fst snd]. unfold dget at 1. rewrite Ix. cbn [bind].
          rewrite (py_index_nth y (idx e) (x_of y e)) by (apply nth_error_nth'; rewrite L; unfold nd; lia). cbn [bind].
          destruct (qc_ltb 0 (x_of y e)) eqn:Ps.
          - apply qc_ltb_lt in Ps. unfold dget at 1. rewrite C1. cbn [bind].
            destruct (put_new_ok x d Q (comp_of e2c e) Iv) as (d1 & E1 & V1); [exists (coord x (comp_of e2c e)); apply coord_at; auto|]. rewrite E1. cbn [bind].
            destruct (put_new_ok x d1 _ u V1) as (d2 & E2 & V2); [exists (coord x u); apply coord_at; auto|]. rewrite E2. cbn [bind].
            destruct (put_new_ok x d2 _ v V2) as (d3 & E3 & V3); [exists (coord x v); apply coord_at; auto|]. exists d3. split; auto.
            eapply inv_ext; [|exact V3]. intros k. cbv beta. tauto.
          - apply qc_ltb_ge in Ps. exists d. split; auto. eapply inv_ext; [|exact Iv]. intros k. split; auto. intros [H|[H _]]; auto. exfalso. qc_lra. }
        destruct S as (d1 & E1 & V1). cbn [foldM]. rewrite E1. cbn [bind]. destruct (IH (fun z Hz => Il z (or_intror Hz)) d1 _ V1) as (d2 & E2 & V2). exists d2. split; auto.
        eapply inv_ext; [|exact V2]. intros k. cbv beta. change (keys ((e, (u, v)) :: l)) with (e :: keys l). split.
        + intros [[H|(H1 & H2)]|(e' & H1 & H2)]; auto.
          * right. exists e. rewrite En. cbn [fst snd]. split; [left; auto|auto].
          * right. exists e'. split; [right; auto|auto].
        + intros [H|(e' & [<-|H1] & H2 & H3)]; auto.
          * rewrite En in H3. auto.
          * right. exists e'. auto. }
    destruct (X edges (fun z Hz => Hz) [] (fun _ => False)) as (d & Ed & [Nk V]).
    { split; [constructor|]. intros k z. split; [discriminate|tauto]. }
    rewrite Ed. cbn [bind]. exists val, S_, (Some d), (x_of y), (u_of y). repeat (split; auto). right. split; auto. split; auto. exists d. split; auto. split; auto.
    intros k z. rewrite V. tauto.
Qed.

Lemma pipe_cap_mono x y e : In x (space (comps_of varis)) -> In y (space (comps_of varis)) -> In e (keys edges) -> (0 < capx x e)%Qc ->
  coord x (comp_of e2c e) <= coord y (comp_of e2c e) -> coord x (fst (ends edges e)) <= coord y (fst (ends edges e)) -> coord x (snd (ends edges e)) <= coord y (snd (ends edges e)) ->
  (capx x e <= capx y e)%Qc.
Proof.
  intros Hx Hy Ie Ps L1 L2 L3. destruct (edge_at e Ie) as (u & v & F & _ & En & _ & Ix & Lx & Iu & Iv & C1 & C2). rewrite En in *. cbn [fst snd] in *.
  unfold pipe_cap in *. rewrite En in *. cbn [fst snd] in *.
  assert (Nn : forall k, In k (keys varis) -> 0 <= coord x k).
  { intros k Ik. destruct (coord_at x k Hx Ik) as [_ J]. destruct (comp_state varis Hc Hv x _ _ Hx J) as (vr & cs & _ & _ & R & _). lia. }
  assert (Nu := Nn u Iu). assert (Nv := Nn v Iv). assert (Ncc := Nn _ C2).
  destruct (Z.eqb_spec (coord x u) 0); [cbn [orb] in Ps; qc_lra|]. destruct (Z.eqb_spec (coord x v) 0); [cbn [orb] in Ps; qc_lra|]. cbn [orb] in *.
  destruct (Z.eqb_spec (coord y u) 0); [lia|]. destruct (Z.eqb_spec (coord y v) 0); [lia|]. cbn [orb].
  destruct (coord_at x _ Hx C2) as [_ Ix']. destruct (coord_at y _ Hy C2) as [_ Iy'].
  destruct (comp_state varis Hc Hv x _ _ Hx Ix') as (vr & cs & Ev & Ec & R & N1 & _). destruct (comp_state varis Hc Hv y _ _ Hy Iy') as (vr' & cs' & Ev' & Ec' & R' & N2 & _).
  rewrite Ev in Ev'. injection Ev' as <-. apply dfind_In in Ev. destruct (Hc _ _ Ev) as (cs2 & Ec2 & _ & Mo).
  assert (Eq : forall a b : list Qc, map VNum a = map VNum b -> a = b). { induction a as [|p a IH]; intros [|q b] H; try discriminate H; auto. injection H as -> H. f_equal. auto. }
  assert (cs = cs2) by (apply Eq; congruence). assert (cs' = cs2) by (apply Eq; congruence). subst cs cs'. apply (Mo (Z.to_nat (coord x (comp_of e2c e))) (Z.to_nat (coord y (comp_of e2c e)))); auto. lia.
Qed.
Lemma plan_sound x y w u r : In x (space (comps_of varis)) -> In y (space (comps_of varis)) -> planx x w u -> names_used edges e2c x w r ->
  (forall k z, dfind r k = Some z -> z <= coord y k) -> planx y w u.
Proof.
  intros Hx Hy (A & B) [_ R] L. split; [|exact B]. intros e Ie. destruct (A e Ie) as [A1 A2]. split; auto.
  destruct (Qclt_le_dec 0 (w e)) as [Ps|Z].
  - apply Qcle_trans with (capx x e); auto. destruct (edge_at e Ie) as (p & q & F & _ & En & _ & Ix & Lx & Iu & Iv & C1 & C2).
    assert (X : forall k, In k (keys varis) -> k = comp_of e2c e \/ k = fst (ends edges e) \/ k = snd (ends edges e) -> coord x k <= coord y k).
    { intros k Ik K. apply L. apply R. split; [apply coord_at; auto|]. exists e. auto. }
    apply pipe_cap_mono; auto; try (apply X; auto; rewrite ?En; auto). qc_lra.
  - apply Qcle_trans with 0%Qc; auto. apply pipe_cap_pos; auto.
Qed.

Lemma pipes_sys_ok phi : (forall x, In x (space (comps_of varis)) -> (phi x = true <-> exists w u, planx x w u /\ integral edges w /\ (thres <= plan_value depots u)%Qc)) ->
  sys_ok varis phi (pipes_sysfun milp thres edges es_idx e2c depots varis sub_nodes sub_edges).
Proof.
  intros Hp.
  assert (Dec : forall x, In x (space (comps_of varis)) -> exists val s m w u, sys_fun_pipes milp x thres edges es_idx e2c depots varis sub_nodes sub_edges = Ok (val, s, m) /\
    planx x w u /\ integral edges w /\ ((s = S_ /\ phi x = true /\ (thres <= plan_value depots u)%Qc /\ exists r, m = Some r /\ names_used edges e2c x w r) \/ (s = F_ /\ phi x = false /\ m = None))).
  { intros x Hx. destruct (pipes_ok x Hx) as (val & s & m & w & u & E & P & I & V & M & C). exists val, s, m, w, u. repeat (split; auto).
    destruct C as [(-> & Lt & ->)|(-> & Le & R)].
    - right. split; auto. split; auto. destruct (phi x) eqn:Q; auto. apply Hp in Q as (w' & u' & P' & I' & T); auto. specialize (M w' u' P' I'). exfalso. qc_lra.
    - left. split; auto. split; [|rewrite V; auto]. apply Hp; auto. exists w, u. rewrite V. auto. }
  assert (Le_r : forall x y w r, In x (space (comps_of varis)) -> names_used edges e2c x w r -> (forall k, In k (keys varis) -> coord x k <= coord y k) ->
    forall k z, dfind r k = Some z -> z <= coord y k).
  { intros x y w r Hx [_ R] L k z E. apply R in E as [E _]. assert (Ik : In k (keys varis)) by (rewrite <- (proj2 (space_states varis x Hv Hx)); apply found_key in E; auto).
    specialize (L k Ik). unfold coord in L at 1. rewrite E in L. auto. }
  split.
  - intros x y Hx Hy Le Px. destruct (Dec x Hx) as (val & s & m & w & u & _ & P & I & [(_ & _ & T & r & _ & R)|(_ & Q & _)]); [|congruence].
    apply Hp; auto. exists w, u. split; auto. apply (plan_sound x y w u r); auto. apply (Le_r x y w r); auto.
  - intros x Hx. destruct (Dec x Hx) as (val & s & m & w & u & E & P & I & C). unfold pipes_sysfun. rewrite E. exists val, m.
    split. { destruct C as [(-> & -> & _)|(-> & -> & _)]; auto. }
    intros r -> Nr. destruct C as [(-> & Px & T & r' & Em & R)|(_ & _ & Em)]; [|discriminate Em]. injection Em as <-.
    destruct (space_states varis x Hv Hx) as [_ Kx]. assert (Rx := R). destruct Rx as [Nd Rx]. split; [split; [auto|]|split; [|congruence]].
    + intros k J. rewrite <- Kx. apply in_map_iff in J as ([k' z] & <- & J). apply In_dfind in J; auto. apply Rx in J as [J _]. apply found_key in J. auto.
    + intros _. split.
      * unfold sat_s. apply forallb_forall. intros [k z] J. apply In_dfind in J; auto. apply Rx in J as [J _]. cbn [fst snd]. apply Z.leb_le. unfold coord. rewrite J. lia.
      * intros y Hy Sy. apply Hp; auto. exists w, u. split; auto. apply (plan_sound x y w u r); auto.
        intros k z Ez. unfold sat_s in Sy. rewrite forallb_forall in Sy. apply dfind_In in Ez. specialize (Sy _ Ez). apply Z.leb_le in Sy. auto.
Qed.
End Net.
