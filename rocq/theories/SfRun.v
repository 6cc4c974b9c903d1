(** demos/SF/batch.py from end to end: lemmas. *)
From Coq Require Import ZArith List String Bool Arith QArith Qcanon Lia Permutation.
From Verif Require Import Py PyFacts Num Vari VariFacts Brc SpecBrc BrcFacts BrcDecomp BrcProb BrcRun BrcMisc BrcMain BrcProper.
From Verif Require Import Cpm SpecCpm CpmFacts Model ModelFacts SysEvent SysJoint.
From Verif Require Import Bnb SpecBnb PathModel PathModelFacts Trans SpecTrans NetSys Config SpecConfig ConfigFacts.
From Verif Require Import PropBrc DemoNet SpecDemo TwoNet RbdRun RouRun SfNet.
Import ListNotations.
Open Scope string_scope.
Open Scope Z_scope.
Open Scope list_scope.

Section Sf.
Context (nx_path : graph -> string -> string -> option (list string)) (nx_wpath : graph -> string -> string -> res (list string))
  (nx_wlen : graph -> string -> string -> res value) (Hn : nx_path_ok nx_path).
Context (f : netfile) (dir multi : bool) (Hk : kind_of (graph_type f) dir multi) (NL : NoDup (keys (node_conn_df f)))
  (Np : multi = false -> no_parallel dir (node_conn_df f)).
Notation K := (keys (node_conn_df f)).
Notation V := (arc_vars K fs2).
Context (max_sf max_nb : Z) (Hm : 1 <= max_sf).
Context (o d : string) (Io : In o (component_list f)).
Notation G := (file_graph f dir multi).
Notation hf := (alike K (Q2Qc (1 # 2)) (Q2Qc (1 # 2))).

Lemma hf_keys : keys hf = K.
Proof. unfold alike. unfold keys at 1. rewrite map_map. cbn [fst]. apply map_id. Qed.
Lemma hf_ok : scen_ok hf.
Proof.
  split; [rewrite hf_keys; auto|]. intros k l Hl. unfold alike in Hl. apply in_map_iff in Hl as (k' & X & _). injection X as <- <-. split; auto. split.
  - intros q' [<-|[<-|[]]]; unfold Qcle; cbn; discriminate.
  - apply Qc_is_canon; reflexivity.
Qed.
Lemma hf_probs : wf_probs V (probs_of hf).
Proof. apply scen_probs; auto. - apply hf_ok. - rewrite hf_keys. intros k; auto. Qed.
Lemma hf_pos : positive K (probs_of hf).
Proof.
  intros k x Hk' Hx. assert (E : dfind (probs_of hf) k = Some (PList [Q2Qc (1 # 2); Q2Qc (1 # 2)])).
  { apply In_dfind.
    - unfold probs_of. unfold keys at 1. rewrite map_map. cbn [fst]. change (NoDup (keys hf)). rewrite hf_keys. auto.
    - unfold probs_of, alike. rewrite map_map. apply in_map_iff. exists k. auto. }
  unfold pr. rewrite E. destruct Hx as [->| ->]; reflexivity.
Qed.

Lemma sf_run : exists rows, sf_main nx_path nx_wpath nx_wlen f o d max_sf max_nb = Ok (rows, V) /\
  (forall r, In r rows -> List.length r = S (List.length K) /\ forall c, In c r -> 0 <= c <= 2) /\
  (forall x, In x (arc_states K) -> List.length (filter (fun r => row_has K r x) rows) = 1%nat) /\
  (forall r x, In r rows -> In x (arc_states K) -> row_has K r x = true ->
     (nth_error r 0 = Some 1 -> joined dir (node_conn_df f) x o d) /\ (nth_error r 0 = Some 0 -> ~ joined dir (node_conn_df f) x o d)) /\
  (2 * 2 ^ Z.of_nat (List.length K) <= max_nb -> 2 ^ Z.of_nat (List.length K) < max_sf -> forall r, In r rows -> nth_error r 0 <> Some 2).
Proof.
  destruct (file_wf f dir multi NL) as (Wg & Lk & _).
  destruct (two_run nx_path nx_wpath nx_wlen Hn G Wg Lk o d K NL (probs_of hf) hf_probs max_sf max_nb Hm)
    as (s & brs & rows & Er & Eb & Nb & Bx & Exb & Pt & Pl & Ec & Fr & Lab & _ & _ & _ & Sz).
  exists rows. split; [|split; [|split; [|split]]].
  - unfold sf_main. rewrite (read_ok f dir multi Hk). cbn [bind fst snd]. cbv zeta. rewrite two_arcs.
    change (as_sysfun _) with (net_sys nx_path nx_wpath nx_wlen G o d K).
    match goal with |- context [run V ?p] => replace p with (probs_of hf) by (unfold probs_of, alike; rewrite map_map; reflexivity) end.
    rewrite Er. cbn [bind]. rewrite Eb. auto.
  - intros r Hr. destruct (Forall2_in_r _ _ _ _ Fr Hr) as (b & Hb & R).
    assert (Cd := st_code K NL [b] [r] ltac:(constructor; auto) _ (or_introl eq_refl)).
    destruct R as (cs & -> & _). inversion_clear Cd as [|? ? ? ? _ Cd']. split.
    + apply Forall2_length in Cd'. cbn [List.length]. rewrite <- Cd'. unfold arc_vars. rewrite !map_length. auto.
    + intros c [<-|Hc]; [destruct (br_label b); cbn; lia|]. destruct (Forall2_in_r _ _ _ _ Cd' Hc) as (v & Hv & (B & EB & RB)).
      unfold arc_vars in Hv. rewrite map_map in Hv. apply in_map_iff in Hv as (k & <- & _). cbn [snd] in EB. rewrite arc_B in EB by reflexivity. injection EB as <-. cbn in RB. lia.
  - intros x Hx. rewrite <- (Pt x) by (rewrite V_space; auto).
    assert (H : forall bs rs, (forall b, In b bs -> wf_br V b) -> Forall2 (row_ok V conv3 V) bs rs ->
      List.length (filter (fun r => row_has K r x) rs) = List.length (filter (fun b => in_branch b x) bs)).
    { intros bs rs Hb F. induction F as [|b r bs rs R F IH]; auto. cbn [filter]. rewrite (proj1 (n3_row f NL b r x Hx R (Hb b (or_introl eq_refl)))).
      destruct (in_branch b x); cbn [List.length]; rewrite IH by (intros; apply Hb; right; auto); auto. }
    apply H; auto.
  - intros r x Hr Hx Rh. destruct (Forall2_in_r _ _ _ _ Fr Hr) as (b & Hb & R). destruct (n3_row f NL b r x Hx R (Bx b Hb)) as [Y1 Y2].
    rewrite Y1 in Rh. destruct (Lab b x Hb Hx Rh) as [L1 L2].
    assert (FC : conn G x o d <-> joined dir (node_conn_df f) x o d) by (apply conn_joined; auto; apply file_nodes; auto).
    rewrite FC in L1, L2. rewrite Y2. split; intros X; injection X as X; [apply L1|apply L2]; apply conv3_inj; exact X.
  - intros Z1 Z2 r Hr. destruct (Forall2_in_r _ _ _ _ Fr Hr) as (b & Hb & (cs & -> & _)). cbn. intros X. injection X as X.
    apply (Sz Z1 Z2 hf_pos) with (b := b); auto. apply conv3_inj. exact X.
Qed.
End Sf.

(** * Numbers of states *)
Lemma sum_swap {A B} (h : A -> B -> bool) (R : list A) (X : list B) :
  list_sum (map (fun r => List.length (filter (h r) X)) R) = list_sum (map (fun x => List.length (filter (fun r => h r x) R)) X).
Proof.
  induction R as [|r R IH].
  - cbn. induction X; cbn; auto.
  - change (list_sum (map (fun r => List.length (filter (h r) X)) (r :: R))) with (List.length (filter (h r) X) + list_sum (map (fun r => List.length (filter (h r) X)) R))%nat.
    rewrite IH. clear IH. induction X as [|x X IH]; auto.
    assert (C : forall g : B -> nat, list_sum (map g (x :: X)) = (g x + list_sum (map g X))%nat) by reflexivity. rewrite !C, <- IH. cbn [filter].
    destruct (h r x); cbn [List.length]; lia.
Qed.
Lemma sum_ind {B} (p : B -> bool) (X : list B) : list_sum (map (fun x => if p x then 1 else 0)%nat X) = List.length (filter p X).
Proof. induction X as [|x X IH]; auto. cbn [map filter]. destruct (p x); cbn [List.length]; rewrite <- IH; reflexivity. Qed.
Lemma sum_le {B} (p q : B -> nat) (X : list B) : (forall x, In x X -> (p x <= q x)%nat) -> (list_sum (map p X) <= list_sum (map q X))%nat.
Proof. induction X as [|x X IH]; intros H; [auto|]. cbn [map list_sum fold_right]. assert (H1 := H x (or_introl eq_refl)). specialize (IH (fun y h => H y (or_intror h))). unfold list_sum in IH. lia. Qed.

Lemma row_states names : NoDup names -> forall c cs, List.length cs = List.length names -> (forall z, In z cs -> 0 <= z <= 2) ->
  List.length (filter (row_has names (c :: cs)) (arc_states names)) = (2 ^ List.length (filter (Z.eqb 2) cs))%nat.
Proof.
  induction 1 as [|k names Hk ND IH]; intros c cs Hl Hz; destruct cs as [|z cs]; try discriminate; [reflexivity|].
  unfold arc_states in *. cbn [map space]. change (zrange 0 2) with [0; 1]. cbn [flat_map]. rewrite app_nil_r, filter_app, app_length.
  assert (Y : forall v, v = 0 \/ v = 1 -> List.length (filter (row_has (k :: names) (c :: z :: cs)) (map (cons (k, v)) (space (map (fun k => (k, 2)) names)))) =
    if (z =? 2) || (z =? v) then List.length (filter (row_has names (c :: cs)) (space (map (fun k => (k, 2)) names))) else 0%nat).
  { intros v Hv. generalize (space (map (fun k => (k, 2)) names)). intros X. induction X as [|x X IHX]; [destruct (_ || _); auto|].
    cbn [map filter]. assert (E : row_has (k :: names) (c :: z :: cs) ((k, v) :: x) = ((z =? 2) || (z =? v)) && row_has names (c :: cs) x).
    { unfold row_has. cbn [List.length tl combine forallb fst snd].
      assert (E0 : coord ((k, v) :: x) k = v) by (unfold coord; cbn [dfind]; rewrite String.eqb_refl; auto). rewrite E0.
      assert (E1 : forallb (fun kc => (snd kc =? 2) || (snd kc =? coord ((k, v) :: x) (fst kc))) (combine names cs) = forallb (fun kc => (snd kc =? 2) || (snd kc =? coord x (fst kc))) (combine names cs)).
      { assert (HI : forall kc, In kc (combine names cs) -> fst kc <> k) by (intros [k' z'] Hi Ek; cbn [fst] in Ek; subst k'; apply Hk; eapply in_combine_l; eauto).
        induction (combine names cs) as [|[k' z'] l IHl]; auto. cbn [forallb fst snd]. rewrite IHl by (intros kc Hc; apply HI; right; auto). f_equal.
        assert (Nk := HI _ (or_introl eq_refl)). cbn [fst] in Nk. unfold coord. cbn [dfind]. destruct (String.eqb k' k) eqn:Ek; [apply String.eqb_eq in Ek; contradiction|]. auto. }
      rewrite E1. change (S (S (List.length cs)) =? S (S (List.length names)))%nat with (S (List.length cs) =? S (List.length names))%nat.
      destruct (S (List.length cs) =? S (List.length names))%nat, ((z =? 2) || (z =? v)), (forallb _ _); auto. }
    rewrite E. destruct ((z =? 2) || (z =? v)); cbn [andb]; [|exact IHX]. destruct (row_has names (c :: cs) x); cbn [List.length]; rewrite IHX; auto. }
  rewrite !Y by auto. rewrite (IH c cs) by (auto; intros; apply Hz; right; auto).
  assert (Rz := Hz z (or_introl eq_refl)). assert (Cz : z = 0 \/ z = 1 \/ z = 2) by lia. destruct Cz as [->|[->| ->]]; cbn [filter Z.eqb Pos.eqb orb List.length Nat.pow]; lia.
Qed.
