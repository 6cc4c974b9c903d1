(** [quant_cpms] builds a network as in BnetFacts.v. *)
From Coq Require Import ZArith List String Bool Arith Lia Permutation QArith Qcanon.
From Verif Require Import Py PyFacts Num Vari VariFacts Cpm CpmFacts SpecCpm CpmSum CpmMarg CpmElim CpmProb SysVal SpecSys SysValFacts CpmCond PropSys Bnb Power SpecPower BnetFacts PowerNodes.
Import ListNotations.
Open Scope string_scope.
Open Scope Z_scope.
Open Scope list_scope.

(** * CPMs given by their rows *)
Definition usable (v : variable) : Prop := full v /\ var_ok v.
Lemma mk_usable name vals flag : vals <> [] -> ((List.length vals <= 6)%nat /\ flag = None) \/ flag = Some FStore -> usable (mk_variable name vals flag).
Proof. intros H1 H2. assert (F := mk_full name vals flag H1 H2). split; auto. apply full_var_ok; auto. Qed.
Lemma explicit_cpm v pars C p : NoDup (names (v :: pars)) -> usable v -> Forall usable pars ->
  (forall row, In row C -> exists s r, row = s :: r /\ 0 <= s < nvals v /\ Forall2 code_ok pars r) -> List.length p = List.length C ->
  let M := mkCpm (v :: pars) 1 C p in
  mk_cpm (v :: pars) 1 C p = Ok M /\ wf_cpm M /\ has_p M /\ basic_in M v.
Proof.
  intros ND Uv Up HR HP M. assert (VO : Forall var_ok (v :: pars)) by (constructor; [apply Uv|eapply Forall_impl; [|exact Up]; intros x X; apply X]).
  assert (RO : forall row, In row C -> Forall2 code_ok (v :: pars) row).
  { intros row Hr. destruct (HR row Hr) as (s & r & -> & Hs & F). constructor; auto. apply full_code; auto. apply Uv. }
  split; [|split; [|split; [exact HP|]]].
  - unfold mk_cpm. cbn [List.length Nat.leb]. rewrite check_C_ok by auto. cbn [bind].
    assert (X : check_p C p = Ok tt); [|rewrite X; auto]. unfold check_p. destruct p; auto. rewrite HP, Nat.eqb_refl. auto.
  - split; auto. split; auto. split; [cbn; lia|]. split; auto.
  - intros row c Hr Hc. cbn [c_C c_vars M] in *. destruct (HR row Hr) as (s & r & -> & Hs & F). cbn [combine] in Hc. destruct Hc as [[= <-]|Hc].
    + exists s. split; auto. intros x. rewrite (proj2 (full_code v s (proj1 Uv) Hs)). cbn. intuition.
    + exfalso. apply in_combine_l in Hc. cbn in ND. inversion ND as [|? ? X _]. apply X. apply (in_map v_name); auto.
Qed.
Lemma mem_one x y : mem_Z x [y] = (x =? y).
Proof. unfold mem_Z. cbn. apply orb_false_r. Qed.
Lemma match_cons v vs c row a : row_match (v :: vs) (c :: row) a = mem_Z (a (v_name v)) (states_of v c) && row_match vs row a.
Proof. reflexivity. Qed.
Lemma match_basic v vs c row a : full v -> 0 <= c < nvals v -> row_match (v :: vs) (c :: row) a = (a (v_name v) =? c) && row_match vs row a.
Proof. intros F H. rewrite match_cons, (proj2 (full_code v c F H)), mem_one. auto. Qed.
Lemma mass_ones vs C a : mass (mkCpm vs 1 C (repeat 1%Qc (List.length C))) a = qsum (map (fun row => if row_match vs row a then 1%Qc else 0%Qc) C).
Proof.
  rewrite mass_if. unfold weights. cbn [c_p c_C c_vars]. replace (match repeat 1%Qc (List.length C) with [] => map (fun _ => 1%Qc) C | q :: l => q :: l end) with (repeat 1%Qc (List.length C)) by (destruct C; auto).
  induction C as [|r C IH]; cbn [List.length repeat combine map qsum]; auto. rewrite IH. auto.
Qed.
Lemma mass_pairs vs C p a : List.length p = List.length C -> mass (mkCpm vs 1 C p) a = qsum (map (fun rp => if row_match vs (fst rp) a then snd rp else 0%Qc) (combine C p)).
Proof. intros H. rewrite mass_if. unfold weights. cbn [c_p c_C c_vars]. destruct p as [|q p]; auto. destruct C; [auto|discriminate]. Qed.
Lemma qsum_pick p : forall z s (g : Z -> Qc -> Qc), z <= s < z + Z.of_nat (List.length p) ->
  qsum (map (fun kp => if s =? fst kp then g (fst kp) (snd kp) else 0%Qc) (combine (zrange z (z + Z.of_nat (List.length p))) p)) = g s (nth (Z.to_nat (s - z)) p 0%Qc).
Proof.
  induction p as [|q p IH]; intros z s g H; [cbn in H; lia|]. cbn [List.length] in *. rewrite zrange_cons by lia. cbn [combine map qsum fst snd].
  replace (z + Z.of_nat (S (List.length p))) with (z + 1 + Z.of_nat (List.length p)) in * by lia.
  destruct (Z.eqb_spec s z) as [->|Hne].
  - rewrite Z.sub_diag. cbn [Z.to_nat nth]. rewrite qsum_map_zero; [ring|]. intros [k x] Hk. apply in_combine_l in Hk. apply In_zrange in Hk. cbn [fst snd].
    destruct (Z.eqb_spec z k); [lia|auto].
  - rewrite IH by lia. replace (Z.to_nat (s - z)) with (S (Z.to_nat (s - (z + 1)))) by lia. cbn [nth]. ring.
Qed.
Lemma qsum_unique l s (g : Z -> Qc) : NoDup l -> In s l -> qsum (map (fun k => if s =? k then g k else 0%Qc) l) = g s.
Proof.
  intros N H. rewrite <- (qsum_single l s (g s) N H). f_equal. apply map_ext. intros k. rewrite Z.eqb_sym. destruct (Z.eqb_spec k s); subst; auto.
Qed.

(** * The dictionaries of a list of nodes *)
Definition st_of (N : list node) : net := (map (fun d => (nd_name d, nd_M d)) N, map (fun d => (nd_name d, nd_v d)) N).
Lemma dset_new {A} (d : dict A) n x : ~ In n (keys d) -> dset d n x = d ++ [(n, x)].
Proof. induction d as [|[k a] d IH]; intros H; auto. cbn in *. destruct (String.eqb_spec n k) as [->|]; [tauto|]. rewrite IH; auto. Qed.
Lemma keys_st N : keys (fst (st_of N)) = map nd_name N /\ keys (snd (st_of N)) = map nd_name N.
Proof. unfold st_of, keys. cbn [fst snd]. rewrite !map_map. auto. Qed.
Lemma put_st N M v F : ~ In (v_name v) (map nd_name N) -> put (st_of N) (v_name v) M v = st_of (N ++ [mkNode v M F]).
Proof.
  intros H. destruct (keys_st N) as [K1 K2]. unfold put. rewrite !dset_new by congruence. unfold st_of. cbn [fst snd]. rewrite !map_app. auto.
Qed.
Lemma dget_node N d : NoDup (map nd_name N) -> In d N -> dget (snd (st_of N)) (nd_name d) = Ok (nd_v d).
Proof.
  intros ND H. unfold dget, st_of. cbn [snd]. assert (E : dfind (map (fun d => (nd_name d, nd_v d)) N) (nd_name d) = Some (nd_v d)); [|rewrite E; auto].
  induction N as [|e N IH]; [destruct H|]. cbn. cbn in ND. inversion ND as [|? ? N1 N2]; subst. destruct H as [->|H]; [rewrite String.eqb_refl; auto|].
  destruct (String.eqb_spec (nd_name d) (nd_name e)) as [X|X]; auto. exfalso. apply N1. rewrite <- X. apply in_map; auto.
Qed.
Lemma dget_new N d v n : NoDup (map nd_name N) -> In d N -> ~ In n (map nd_name N) -> dget (dset (snd (st_of N)) n v) (nd_name d) = Ok (nd_v d).
Proof.
  intros ND H Hn. rewrite <- (dget_node N d ND H). unfold dget. rewrite dfind_dset.
  destruct (String.eqb_spec (nd_name d) n) as [X|X]; auto. exfalso. apply Hn. rewrite <- X. apply in_map; auto.
Qed.

(** * The hazard *)
Definition vhaz (haz : dict Qc) : variable := mk_variable "haz" (map VStr (keys haz)) None.
Definition Mhaz (haz : dict Qc) : cpm := mkCpm [vhaz haz] 1 (map (fun k => [k]) (zrange 0 (Z.of_nat (List.length haz)))) (map snd haz).
Definition Nhaz (haz : dict Qc) : node := mkNode (vhaz haz) (Mhaz haz) None.
Lemma nvals_haz haz : nvals (vhaz haz) = Z.of_nat (List.length haz).
Proof. unfold nvals, vhaz, keys. cbn [v_values mk_variable]. rewrite !map_length. auto. Qed.
Lemma haz_usable haz : (1 <= List.length haz <= 6)%nat -> usable (vhaz haz).
Proof. intros H. apply mk_usable; [|left; unfold keys; rewrite !map_length; split; [lia|auto]]. destruct haz; [cbn in H; lia|discriminate]. Qed.
Lemma haz_ok haz : (1 <= List.length haz <= 6)%nat -> (forall k p, In (k, p) haz -> 0 <= p)%Qc ->
  hazard_node haz = Ok (st_of [Nhaz haz]) /\ node_ok [] (Nhaz haz).
Proof.
  intros HL HP. destruct (explicit_cpm (vhaz haz) [] (map (fun k => [k]) (zrange 0 (Z.of_nat (List.length haz)))) (map snd haz)) as (E & W & P & B).
  - cbn. constructor; [intros []|constructor].
  - apply haz_usable; auto.
  - constructor.
  - intros row Hr. apply in_map_iff in Hr as (k & <- & Hk). apply In_zrange in Hk. exists k, []. rewrite nvals_haz. auto.
  - rewrite !map_length, zrange_length. lia.
  - split.
    + unfold hazard_node. cbn zeta. fold (vhaz haz). rewrite E. cbn [bind]. f_equal.
    + exists []. cbn [nd_M nd_v nd_F Nhaz]. split; auto. split; [intros x []|]. split; auto. split; auto. split; auto. split; auto. split; auto. split; auto.
      intros q Hq. cbn [c_p Mhaz] in Hq. apply in_map_iff in Hq as ([k p] & <- & H). eapply HP; eauto.
Qed.
Lemma haz_mass haz a : (1 <= List.length haz <= 6)%nat -> 0 <= a "haz" < Z.of_nat (List.length haz) ->
  mass (Mhaz haz) a = nth (Z.to_nat (a "haz")) (map snd haz) 0%Qc.
Proof.
  intros HL Ha. unfold Mhaz. rewrite mass_pairs by (rewrite !map_length, zrange_length; lia).
  assert (G := qsum_pick (map snd haz) 0 (a "haz") (fun _ x => x)). rewrite map_length in G. cbn beta in G. rewrite Z.sub_0_r in G. rewrite <- G by lia. clear G. f_equal.
  rewrite Z.add_0_l. assert (X : forall l p, (forall k, In k l -> 0 <= k < nvals (vhaz haz)) ->
    map (fun rp : list Z * Qc => if row_match [vhaz haz] (fst rp) a then snd rp else 0%Qc) (combine (map (fun k => [k]) l) p) =
    map (fun kp => if a "haz" =? fst kp then snd kp else 0%Qc) (combine l p)).
  { induction l as [|k l IH]; intros [|q p] H; cbn [map combine]; auto. rewrite IH by (intros; apply H; right; auto). cbn [fst snd].
    rewrite match_basic; [|apply haz_usable; auto|apply H; left; auto]. cbn [row_match combine forallb]. rewrite andb_true_r. auto. }
  apply X. intros k Hk. apply In_zrange in Hk. rewrite nvals_haz. auto.
Qed.

(** * Structures *)
Definition vx (s : string) : variable := mk_variable ("x" ++ s)%string [VStr "fail"; VStr "surv"] None.
Definition Mx (haz : dict Qc) (sp : string * list Qc) : cpm :=
  mkCpm [vx (fst sp); vhaz haz] 1 (struct_rows haz) (flat_map (fun p => [p; 1 - p]%Qc) (snd sp)).
Definition Nx (haz : dict Qc) (sp : string * list Qc) : node := mkNode (vx (fst sp)) (Mx haz sp) None.
Lemma vx_usable s : usable (vx s).
Proof. apply mk_usable; [discriminate|left; cbn; split; [lia|auto]]. Qed.
Lemma x_not_haz s : ("x" ++ s)%string <> "haz".
Proof. discriminate. Qed.
Lemma rows_length haz : List.length (struct_rows haz) = (2 * List.length haz)%nat.
Proof.
  unfold struct_rows. assert (G : forall l : list Z, List.length (flat_map (fun hs => [[0; hs]; [1; hs]]) l) = (2 * List.length l)%nat).
  { induction l; cbn [flat_map List.length app]; lia. }
  rewrite G, zrange_length. lia.
Qed.
Lemma ps_length (pf : list Qc) : List.length (flat_map (fun p => [p; 1 - p]%Qc) pf) = (2 * List.length pf)%nat.
Proof. induction pf; cbn [flat_map List.length app]; lia. Qed.
Lemma struct_ok haz N s pf : (1 <= List.length haz <= 6)%nat -> topo N -> In (Nhaz haz) N -> ~ In ("x" ++ s)%string (map nd_name N) ->
  List.length pf = List.length haz -> (forall p, In p pf -> 0 <= p <= 1)%Qc ->
  struct_step haz (st_of N) (s, pf) = Ok (st_of (N ++ [Nx haz (s, pf)])) /\ node_ok N (Nx haz (s, pf)).
Proof.
  intros HL T Hh Fr Hpf HP. destruct (explicit_cpm (vx s) [vhaz haz] (struct_rows haz) (flat_map (fun p => [p; 1 - p]%Qc) pf)) as (E & W & P & B).
  - cbn. constructor; [intros [X|[]]; apply (x_not_haz s); auto|constructor; [intros []|constructor]].
  - apply vx_usable.
  - constructor; [apply haz_usable; auto|constructor].
  - intros row Hr. unfold struct_rows in Hr. apply in_flat_map in Hr as (hs & Hhs & Hr). apply In_zrange in Hhs.
    assert (CO : Forall2 code_ok [vhaz haz] [hs]) by (constructor; [apply full_code; [apply haz_usable; auto|rewrite nvals_haz; auto]|constructor]).
    destruct Hr as [<-|[<-|[]]]; [exists 0, [hs]|exists 1, [hs]]; (split; [auto|split; [unfold nvals; cbn; lia|auto]]).
  - rewrite rows_length, ps_length. lia.
  - split.
    + unfold struct_step. cbn [fst snd]. cbn zeta. fold (vx s). rewrite (dget_new N (Nhaz haz)); [|apply topo_nodup; auto|auto|auto]. cbn [bind nd_v Nhaz]. rewrite E. cbn [bind]. f_equal.
      apply (put_st N _ (vx s) None). auto.
    + exists [vhaz haz]. cbn [nd_M nd_v nd_F Nx]. split; auto. split; [intros x [<-|[]]; apply (in_map nd_v _ (Nhaz haz)); auto|]. split; [right; discriminate|].
      split; auto. split; auto. split; auto. split; auto. split; auto.
      intros q Hq. cbn [c_p Mx snd] in Hq. apply in_flat_map in Hq as (p & Hp & Hq). destruct (HP p Hp) as [Q1 Q2]. destruct Hq as [<-|[<-|[]]]; auto. qc_lra.
Qed.
Lemma struct_mass haz sp a : (1 <= List.length haz <= 6)%nat -> List.length (snd sp) = List.length haz -> 0 <= a "haz" < Z.of_nat (List.length haz) ->
  0 <= a ("x" ++ fst sp)%string < 2 ->
  mass (Mx haz sp) a = let p := nth (Z.to_nat (a "haz")) (snd sp) 0%Qc in if a ("x" ++ fst sp)%string =? 0 then p else (1 - p)%Qc.
Proof.
  intros HL Hp Ha Hx. unfold Mx. rewrite mass_pairs by (rewrite rows_length, ps_length; lia). cbn zeta.
  set (g := fun (_ : Z) p => if a ("x" ++ fst sp)%string =? 0 then p else (1 - p)%Qc).
  assert (G := qsum_pick (snd sp) 0 (a "haz") g). rewrite Z.sub_0_r in G. unfold g at 2 in G. rewrite <- G by lia. clear G. rewrite Z.add_0_l. unfold struct_rows. rewrite Hp.
  assert (X : forall l p, (forall k, In k l -> 0 <= k < nvals (vhaz haz)) ->
    qsum (map (fun rp : list Z * Qc => if row_match [vx (fst sp); vhaz haz] (fst rp) a then snd rp else 0%Qc) (combine (flat_map (fun hs => [[0; hs]; [1; hs]]) l) (flat_map (fun p => [p; 1 - p]%Qc) p))) =
    qsum (map (fun kp => if a "haz" =? fst kp then g (fst kp) (snd kp) else 0%Qc) (combine l p))).
  { induction l as [|k l IH]; intros [|q p] H; auto. cbn [flat_map app combine map qsum fst snd]. rewrite IH by (intros; apply H; right; auto).
    assert (V : forall c, 0 <= c < 2 -> row_match [vx (fst sp); vhaz haz] [c; k] a = (a ("x" ++ fst sp)%string =? c) && (a "haz" =? k)).
    { intros c Hc. rewrite match_basic; [|apply vx_usable|exact Hc]. rewrite match_basic; [|apply haz_usable; auto|apply H; left; auto]. cbn [row_match combine forallb]. rewrite andb_true_r. auto. }
    rewrite !V by lia. unfold g. destruct (Z.eqb_spec (a ("x" ++ fst sp)%string) 0) as [X|X], (Z.eqb_spec (a ("x" ++ fst sp)%string) 1) as [Y|Y]; try lia;
      destruct (a "haz" =? k); cbn [andb]; ring. }
  apply X. intros k Hk. apply In_zrange in Hk. rewrite nvals_haz. auto.
Qed.

Lemma structs_ok haz pfs : forall N, (1 <= List.length haz <= 6)%nat -> topo N -> In (Nhaz haz) N ->
  NoDup (keys pfs) -> (forall s, In s (keys pfs) -> ~ In ("x" ++ s)%string (map nd_name N)) ->
  (forall s pf, In (s, pf) pfs -> List.length pf = List.length haz /\ forall p, In p pf -> 0 <= p <= 1)%Qc ->
  foldM (struct_step haz) pfs (st_of N) = Ok (st_of (N ++ map (Nx haz) pfs)) /\ topo (N ++ map (Nx haz) pfs).
Proof.
  induction pfs as [|[s pf] pfs IH]; intros N HL T Hh ND Fr HP; cbn [foldM map].
  - rewrite app_nil_r. auto.
  - destruct (HP s pf (or_introl eq_refl)) as [P1 P2]. destruct (struct_ok haz N s pf HL T Hh) as [E OK]; auto; [apply Fr; left; auto|].
    rewrite E. cbn [bind]. replace (N ++ Nx haz (s, pf) :: map (Nx haz) pfs) with ((N ++ [Nx haz (s, pf)]) ++ map (Nx haz) pfs) by (rewrite <- app_assoc; auto).
    cbn in ND. inversion ND as [|? ? N1 N2]; subst. apply IH; auto.
    + constructor; auto. apply Fr. left; auto.
    + apply in_app_iff; auto.
    + intros t Ht. rewrite map_app, in_app_iff. intros [X|[X|[]]]; [apply (Fr t); [right; auto|auto]|]. unfold nd_name, Nx in X. cbn in X. injection X as ->. auto.
    + intros t q Hq. exact (HP t q (or_intror Hq)).
Qed.

(** * Numbers of failed structures *)
Definition vn (i : nat) (s : string) : variable := mk_variable ("n" ++ s)%string (num_values (i + 2)) None.
Definition vc (i : nat) (s : string) : variable := mk_variable ("c" ++ s)%string (num_values (i + 2)) None.
Definition fails (s : string) (a : joint) : Z := if a ("x" ++ s)%string =? 0 then 1 else 0.
Definition Fn (old : option string) (s : string) (a : joint) : Z :=
  match old with None => fails s a | Some o => a ("n" ++ o)%string + fails s a end.
Definition Fc (s : string) (a : joint) : Z := if a ("x" ++ s)%string =? 0 then a ("n" ++ s)%string else 0.
Lemma num_ne n : (1 <= n)%nat -> num_values n <> [].
Proof. intros H X. apply (f_equal (@List.length value)) in X. rewrite num_values_length in X. cbn in X. lia. Qed.
Lemma vn_usable i s : (i <= 4)%nat -> usable (vn i s).
Proof. intros H. apply mk_usable; [apply num_ne; lia|]. left. rewrite num_values_length. split; [lia|auto]. Qed.
Lemma vc_usable i s : (i <= 4)%nat -> usable (vc i s).
Proof. intros H. apply mk_usable; [apply num_ne; lia|]. left. rewrite num_values_length. split; [lia|auto]. Qed.
Lemma nvals_vn i s : nvals (vn i s) = Z.of_nat i + 2.
Proof. unfold nvals, vn. cbn [v_values mk_variable]. rewrite num_values_length. lia. Qed.
Lemma nvals_vc i s : nvals (vc i s) = Z.of_nat i + 2.
Proof. unfold nvals, vc. cbn [v_values mk_variable]. rewrite num_values_length. lia. Qed.
Lemma nvals_vx s : nvals (vx s) = 2.
Proof. reflexivity. Qed.
Lemma as_int_num k : as_int (VNum (qz k)) = Ok k.
Proof.
  unfold as_int, qz, Q2Qc. cbn [this]. f_equal. assert (E := Qred_correct (inject_Z k)). unfold Qeq in E. cbn [inject_Z Qnum Qden] in E. rewrite Z.mul_1_r in E.
  rewrite E. apply Z.div_mul. discriminate.
Qed.
Lemma as_int_values n : mapM as_int (num_values n) = Ok (zrange 0 (Z.of_nat n)).
Proof. unfold num_values. induction (zrange 0 (Z.of_nat n)) as [|k l IH]; cbn [map mapM]; auto. rewrite as_int_num. cbn [bind]. rewrite IH. auto. Qed.
Lemma fails_range s a : 0 <= fails s a <= 1.
Proof. unfold fails. destruct (_ =? 0); lia. Qed.

(** rows over the child, the structure and a third variable *)
Lemma match3 v x o c1 c2 c3 a : full v -> full x -> full o -> 0 <= c1 < nvals v -> 0 <= c2 < nvals x -> 0 <= c3 < nvals o ->
  row_match [v; x; o] [c1; c2; c3] a = (a (v_name v) =? c1) && ((a (v_name x) =? c2) && (a (v_name o) =? c3)).
Proof.
  intros. rewrite match_basic by auto. rewrite match_basic by auto. rewrite match_basic by auto. cbn [row_match combine forallb]. rewrite andb_true_r. auto.
Qed.

Lemma number_mass i s j o a : (i <= 4)%nat -> (S j = i)%nat -> 0 <= a ("x" ++ s)%string < 2 -> 0 <= a ("n" ++ o)%string < nvals (vn j o) ->
  let rows := flat_map (fun k => [[k; 1; k]; [k + 1; 0; k]]) (zrange 0 (Z.of_nat (j + 2))) in
  mass (mkCpm [vn i s; vx s; vn j o] 1 rows (repeat 1%Qc (List.length rows))) a = if a ("n" ++ s)%string =? Fn (Some o) s a then 1%Qc else 0%Qc.
Proof.
  intros Hi Hj Hx Hn rows. rewrite mass_ones. unfold rows. rewrite qsum_flat_map. cbn [map qsum]. rewrite nvals_vn in Hn.
  set (g := fun k => if a ("n" ++ s)%string =? k + fails s a then 1%Qc else 0%Qc).
  transitivity (qsum (map (fun k => if a ("n" ++ o)%string =? k then g k else 0%Qc) (zrange 0 (Z.of_nat (j + 2))))).
  - f_equal. apply map_ext_in. intros k Hk. apply In_zrange in Hk.
    assert (U := fun c d H1 H2 => match3 (vn i s) (vx s) (vn j o) c d k a (proj1 (vn_usable i s Hi)) (proj1 (vx_usable s)) (proj1 (vn_usable j o ltac:(lia))) H1 H2 ltac:(rewrite nvals_vn; lia)).
    rewrite !U by (rewrite ?nvals_vn, ?nvals_vx; lia). clear U. change (v_name (vn i s)) with ("n" ++ s)%string. change (v_name (vx s)) with ("x" ++ s)%string. change (v_name (vn j o)) with ("n" ++ o)%string.
    unfold g, fails. destruct (Z.eqb_spec (a ("n" ++ o)%string) k) as [Eo|Eo]; [|rewrite !andb_false_r; ring]. rewrite !andb_true_r.
    destruct (Z.eqb_spec (a ("x" ++ s)%string) 0) as [E0|E0], (Z.eqb_spec (a ("x" ++ s)%string) 1) as [E1|E1]; try lia; rewrite ?andb_true_r, ?andb_false_r, ?Z.add_0_r; ring.
  - rewrite qsum_unique; [reflexivity|apply zrange_NoDup|apply In_zrange; lia].
Qed.
Lemma first_mass s a : 0 <= a ("x" ++ s)%string < 2 ->
  mass (mkCpm [vn 0 s; vx s] 1 [[1; 0]; [0; 1]] [1; 1]%Qc) a = if a ("n" ++ s)%string =? Fn None s a then 1%Qc else 0%Qc.
Proof.
  intros Hx. change [1; 1]%Qc with (repeat 1%Qc (List.length [[1; 0]; [0; 1]])). rewrite mass_ones. cbn [map qsum].
  rewrite !match_basic by (try apply vn_usable; try apply vx_usable; rewrite ?nvals_vn, ?nvals_vx; lia). cbn [row_match combine forallb].
  change (v_name (vn 0 s)) with ("n" ++ s)%string. change (v_name (vx s)) with ("x" ++ s)%string. rewrite !andb_true_r. unfold Fn, fails.
  destruct (Z.eqb_spec (a ("x" ++ s)%string) 0) as [E0|E0], (Z.eqb_spec (a ("x" ++ s)%string) 1) as [E1|E1]; try lia; rewrite ?andb_true_r, ?andb_false_r; ring.
Qed.

Definition is_node (v : variable) (F : option (joint -> Z)) (d : node) : Prop := nd_v d = v /\ nd_F d = F.
Definition has_node (N : list node) (v : variable) (F : option (joint -> Z)) : Prop := exists d, In d N /\ is_node v F d.
Lemma has_app N N' v F : has_node N v F -> has_node (N ++ N') v F.
Proof. intros (d & H & I). exists d. split; auto. apply in_app_iff; auto. Qed.
Lemma has_get N v F : topo N -> has_node N v F -> dget (snd (st_of N)) (v_name v) = Ok v.
Proof. intros T (d & H & <- & _). exact (dget_node N d (topo_nodup N T) H). Qed.
Lemma has_get_new N v F n w : topo N -> has_node N v F -> ~ In n (map nd_name N) -> dget (dset (snd (st_of N)) n w) (v_name v) = Ok v.
Proof. intros T (d & H & <- & _) Hn. exact (dget_new N d w n (topo_nodup N T) H Hn). Qed.
Lemma has_in N v F : has_node N v F -> In v (nvars N).
Proof. intros (d & H & <- & _). apply in_map; auto. Qed.
Lemma repeat_one n q : In q (repeat 1%Qc n) -> (0 <= q)%Qc.
Proof. intros H. apply repeat_spec in H. subst. discriminate. Qed.

(** [old]: the previous structure and its number *)
Definition old_ok (N : list node) (i : nat) (old : option string) (n_old : string) : Prop :=
  match old with
  | None => i = 0%nat
  | Some o => n_old = ("n" ++ o)%string /\ exists j F, S j = i /\ has_node N (vn j o) F
  end.
Lemma number_ok N i s old n_old : (i <= 4)%nat -> topo N -> has_node N (vx s) None -> old_ok N i old n_old -> ~ In ("n" ++ s)%string (map nd_name N) ->
  exists d, number_step (st_of N, n_old) (i, s) = Ok (st_of (N ++ [d]), ("n" ++ s)%string) /\ is_node (vn i s) (Some (Fn old s)) d /\ node_ok N d.
Proof.
  intros Hi T Hx HO Fr. destruct old as [o|].
  - destruct HO as (En & j & F & Ej & Ho).
    set (rows := flat_map (fun k => [[k; 1; k]; [k + 1; 0; k]]) (zrange 0 (Z.of_nat (j + 2)))).
    assert (Lr : List.length rows = (2 * (j + 2))%nat).
    { unfold rows. assert (G : forall l : list Z, List.length (flat_map (fun k => [[k; 1; k]; [k + 1; 0; k]]) l) = (2 * List.length l)%nat) by (induction l; cbn [flat_map List.length app]; lia).
      rewrite G, zrange_length. lia. }
    assert (NDn : ("n" ++ s)%string <> ("n" ++ o)%string).
    { intros X. apply Fr. rewrite X. apply has_in in Ho. rewrite <- names_nvars. apply (in_map v_name) in Ho. exact Ho. }
    destruct (explicit_cpm (vn i s) [vx s; vn j o] rows (repeat 1%Qc (List.length rows))) as (E & W & P & B).
    + cbn. constructor; [intros [X|[X|[]]]; [discriminate|auto]|]. constructor; [intros [X|[]]; discriminate|constructor; [intros []|constructor]].
    + apply vn_usable; auto.
    + constructor; [apply vx_usable|constructor; [apply vn_usable; lia|constructor]].
    + intros row Hr. apply in_flat_map in Hr as (k & Hk & Hr). apply In_zrange in Hk.
      assert (CO : forall c, 0 <= c < 2 -> Forall2 code_ok [vx s; vn j o] [c; k]).
      { intros c Hc. constructor; [apply full_code; [apply vx_usable|exact Hc]|]. constructor; [|constructor]. apply full_code; [apply vn_usable; lia|]. rewrite nvals_vn. lia. }
      destruct Hr as [<-|[<-|[]]]; [exists k, [1; k]|exists (k + 1), [0; k]]; (split; [auto|split; [rewrite nvals_vn; lia|apply CO; lia]]).
    + rewrite repeat_length. auto.
    + exists (mkNode (vn i s) (mkCpm [vn i s; vx s; vn j o] 1 rows (repeat 1%Qc (List.length rows))) (Some (Fn (Some o) s))). split; [|split; [split; auto|]].
      * unfold number_step. cbn [fst snd]. cbn zeta. fold (vn i s). replace (i <? 1)%nat with false by (symmetry; apply Nat.ltb_ge; lia). rewrite En.
        change ("n" ++ o)%string with (v_name (vn j o)). rewrite (has_get_new N (vn j o) F) by auto. cbn [bind]. change (v_values (vn j o)) with (num_values (j + 2)).
        rewrite as_int_values. cbn [bind]. change ("x" ++ s)%string with (v_name (vx s)). rewrite (has_get_new N (vx s) None) by auto. cbn [bind].
        fold rows. replace (2 * List.length (zrange 0 (Z.of_nat (j + 2))))%nat with (List.length rows) by (rewrite Lr, zrange_length; lia). rewrite E. cbn [bind].
        change ("n" ++ s)%string with (v_name (vn i s)). rewrite (put_st N _ (vn i s) (Some (Fn (Some o) s))) by auto. auto.
      * exists [vx s; vn j o]. cbn [nd_M nd_v nd_F]. split; auto. split; [intros v [<-|[<-|[]]]; eapply has_in; eauto|]. split; [right; discriminate|]. split; auto. split; auto. split; auto. split; auto.
        split; [intros q; apply repeat_one|]. assert (HM : forall a, states_in [vx s; vn j o] a -> mass (mkCpm [vn i s; vx s; vn j o] 1 rows (repeat 1%Qc (List.length rows))) a = if a ("n" ++ s)%string =? Fn (Some o) s a then 1%Qc else 0%Qc).
        { intros a Sa. apply number_mass; auto; [apply (Sa (vx s)); left; auto|apply (Sa (vn j o)); right; left; auto]. }
        assert (SI : forall a, states_in (vn i s :: nvars N) a -> states_in [vx s; vn j o] a).
        { intros a Sa v [<-|[<-|[]]]; apply Sa; right; eapply has_in; eauto. }
        split; [|split; [|split]].
        -- intros a b H. assert (H1 := H (vx s) (or_introl eq_refl)). assert (H2 := H (vn j o) (or_intror (or_introl eq_refl))). cbn [v_name vn vx mk_variable] in H1, H2. unfold Fn, fails. rewrite H1, H2. auto.
        -- intros a Sa. rewrite nvals_vn. unfold Fn. assert (X := Sa (vn j o) (or_intror (or_introl eq_refl))). rewrite nvals_vn in X. cbn [v_name vn mk_variable] in X. pose proof (fails_range s a). lia.
        -- intros a Sa. rewrite HM by auto. unfold nd_name. cbn [nd_v vn v_name mk_variable]. destruct (Z.eqb_spec (a ("n" ++ s)%string) (Fn (Some o) s a)); congruence.
        -- intros a Sa _. rewrite HM by auto. unfold nd_name. cbn [nd_v vn v_name mk_variable]. intros ->. rewrite Z.eqb_refl. auto.
  - cbn in HO. subst i. destruct (explicit_cpm (vn 0 s) [vx s] [[1; 0]; [0; 1]] [1; 1]%Qc) as (E & W & P & B).
    + cbn. constructor; [intros [X|[]]; discriminate|]. constructor; [intros []|constructor].
    + apply vn_usable; lia.
    + constructor; [apply vx_usable|constructor].
    + intros row Hr. assert (CO : forall c, 0 <= c < 2 -> Forall2 code_ok [vx s] [c]) by (intros c Hc; constructor; [apply full_code; [apply vx_usable|exact Hc]|constructor]).
      destruct Hr as [<-|[<-|[]]]; [exists 1, [0]|exists 0, [1]]; (split; [auto|split; [rewrite nvals_vn; lia|apply CO; lia]]).
    + reflexivity.
    + exists (mkNode (vn 0 s) (mkCpm [vn 0 s; vx s] 1 [[1; 0]; [0; 1]] [1; 1]%Qc) (Some (Fn None s))). split; [|split; [split; auto|]].
      * unfold number_step. cbn [fst snd Nat.ltb Nat.leb]. cbn zeta. change (0 + 2)%nat with 2%nat. fold (vn 0 s).
        change ("x" ++ s)%string with (v_name (vx s)). change (mk_variable ("n" ++ s)%string (num_values 2) None) with (vn 0 s). rewrite (has_get_new N (vx s) None) by auto. cbn [bind].
        rewrite E. cbn [bind]. change ("n" ++ s)%string with (v_name (vn 0 s)). rewrite (put_st N _ (vn 0 s) (Some (Fn None s))) by auto. auto.
      * exists [vx s]. cbn [nd_M nd_v nd_F]. split; auto. split; [intros v [<-|[]]; eapply has_in; eauto|]. split; [right; discriminate|]. split; auto. split; auto. split; auto. split; auto.
        split; [intros q; apply (repeat_one 2)|].
        assert (SI : forall a, states_in (vn 0 s :: nvars N) a -> 0 <= a ("x" ++ s)%string < 2).
        { intros a Sa. apply (Sa (vx s)). right. eapply has_in; eauto. }
        split; [|split; [|split]].
        -- intros a b H. assert (H1 := H (vx s) (or_introl eq_refl)). cbn [v_name vx mk_variable] in H1. unfold Fn, fails. rewrite H1. auto.
        -- intros a Sa. rewrite nvals_vn. unfold Fn. pose proof (fails_range s a). lia.
        -- intros a Sa. rewrite first_mass by auto. unfold nd_name. cbn [nd_v vn v_name mk_variable]. destruct (Z.eqb_spec (a ("n" ++ s)%string) (Fn None s a)); congruence.
        -- intros a Sa _. rewrite first_mass by auto. unfold nd_name. cbn [nd_v vn v_name mk_variable]. intros ->. rewrite Z.eqb_refl. auto.
Qed.

Fixpoint chain (i : nat) (old : option string) (l : list string) : list (nat * option string * string) :=
  match l with [] => [] | s :: l' => (i, old, s) :: chain (S i) (Some s) l' end.
Definition n_node (t : nat * option string * string) (d : node) : Prop :=
  let '(i, old, s) := t in is_node (vn i s) (Some (Fn old s)) d.
Lemma numbers_ok l : forall N i old n_old, (i + List.length l <= 5)%nat -> topo N -> (forall s, In s l -> has_node N (vx s) None) -> old_ok N i old n_old ->
  NoDup l -> (forall s, In s l -> ~ In ("n" ++ s)%string (map nd_name N)) ->
  exists N' n', foldM number_step (combine (seq i (List.length l)) l) (st_of N, n_old) = Ok (st_of (N ++ N'), n') /\ topo (N ++ N') /\ Forall2 n_node (chain i old l) N'.
Proof.
  induction l as [|s l IH]; intros N i old n_old HL T Hx HO ND Fr; cbn [List.length seq combine foldM chain].
  - exists [], n_old. rewrite app_nil_r. split; [auto|split; [auto|constructor]].
  - cbn in HL. destruct (number_ok N i s old n_old) as (d & E & I & OK); auto; [lia|apply Hx; left; auto|apply Fr; left; auto|].
    rewrite E. cbn [bind]. inversion ND as [|? ? N1 N2]; subst. destruct (IH (N ++ [d]) (S i) (Some s) ("n" ++ s)%string) as (N' & n' & E' & T' & F'); auto.
    + lia.
    + constructor; auto. unfold nd_name. destruct I as [-> _]. apply Fr. left; auto.
    + intros t Ht. apply has_app, Hx. right; auto.
    + split; auto. exists i, (Some (Fn old s)). split; auto. exists d. split; auto. apply in_app_iff; right; left; auto.
    + intros t Ht. rewrite map_app, in_app_iff. intros [X|[X|[]]]; [apply (Fr t); [right; auto|auto]|]. unfold nd_name in X. destruct I as [EI _]. rewrite EI in X. cbn in X. injection X as ->. auto.
    + exists (d :: N'), n'. rewrite <- app_assoc in E', T'. split; [exact E'|split; [exact T'|constructor; auto]].
Qed.

(** * Closure times *)
Lemma closure_mass i s c a : (i <= 4)%nat -> code_ok (vn i s) c -> (forall x, In x (states_of (vn i s) c) <-> 0 <= x < nvals (vn i s)) ->
  0 <= a ("x" ++ s)%string < 2 -> 0 <= a ("n" ++ s)%string < nvals (vn i s) -> 0 <= a ("c" ++ s)%string < nvals (vc i s) ->
  let rows := [0; 1; c] :: map (fun k => [k; 0; k]) (filter (fun k => 0 <? k) (zrange 0 (Z.of_nat (i + 2)))) in
  mass (mkCpm [vc i s; vx s; vn i s] 1 rows (repeat 1%Qc (List.length rows))) a =
    if a ("x" ++ s)%string =? 0 then (if (a ("c" ++ s)%string =? a ("n" ++ s)%string) && (0 <? a ("n" ++ s)%string) then 1%Qc else 0%Qc)
    else if a ("c" ++ s)%string =? 0 then 1%Qc else 0%Qc.
Proof.
  intros Hi Hco Hst Hx Hn Hc rows. rewrite mass_ones. unfold rows. cbn [map qsum]. rewrite map_map.
  assert (Fv := proj1 (vc_usable i s Hi)). assert (Fx := proj1 (vx_usable s)). assert (Fnn := proj1 (vn_usable i s Hi)). rewrite nvals_vn in Hn. rewrite nvals_vc in Hc.
  set (g := fun k => if (a ("c" ++ s)%string =? k) && (a ("x" ++ s)%string =? 0) then 1%Qc else 0%Qc).
  assert (X : qsum (map (fun k => if row_match [vc i s; vx s; vn i s] [k; 0; k] a then 1%Qc else 0%Qc) (filter (fun k => 0 <? k) (zrange 0 (Z.of_nat (i + 2))))) =
              if 0 <? a ("n" ++ s)%string then g (a ("n" ++ s)%string) else 0%Qc).
  { transitivity (qsum (map (fun k => if a ("n" ++ s)%string =? k then g k else 0%Qc) (filter (fun k => 0 <? k) (zrange 0 (Z.of_nat (i + 2)))))).
    - f_equal. apply map_ext_in. intros k Hk. apply filter_In in Hk as [Hk _]. apply In_zrange in Hk.
      rewrite match3 by (auto; rewrite ?nvals_vc, ?nvals_vx, ?nvals_vn; lia). cbn [v_name vc vx vn mk_variable]. unfold g.
      destruct (a ("n" ++ s)%string =? k); rewrite ?andb_true_r, ?andb_false_r; auto.
    - destruct (Z.ltb_spec 0 (a ("n" ++ s)%string)) as [L|L].
      + rewrite qsum_unique; auto; [apply NoDup_filter, zrange_NoDup|]. apply filter_In. split; [apply In_zrange; lia|apply Z.ltb_lt; auto].
      + apply qsum_map_zero. intros k Hk. apply filter_In in Hk as [_ Hk]. apply Z.ltb_lt in Hk. destruct (Z.eqb_spec (a ("n" ++ s)%string) k); [lia|auto]. }
  rewrite X. clear X.
  rewrite (match_basic (vc i s)) by (auto; rewrite nvals_vc; lia). rewrite (match_basic (vx s)) by (auto; rewrite nvals_vx; lia). rewrite match_cons.
  replace (mem_Z (a (v_name (vn i s))) (states_of (vn i s) c)) with true by (symmetry; apply mem_Z_In, Hst; rewrite nvals_vn; cbn [v_name vn mk_variable]; lia).
  cbn [row_match combine forallb andb]. rewrite !andb_true_r. cbn [v_name vc vx vn mk_variable].
  unfold g. destruct (Z.eqb_spec (a ("x" ++ s)%string) 0) as [E0|E0].
  - replace (a ("x" ++ s)%string =? 1) with false by (symmetry; apply Z.eqb_neq; lia). rewrite andb_false_r, andb_true_r.
    destruct (0 <? a ("n" ++ s)%string), (a ("c" ++ s)%string =? a ("n" ++ s)%string); cbn [andb]; ring.
  - replace (a ("x" ++ s)%string =? 1) with true by (symmetry; apply Z.eqb_eq; lia). rewrite andb_false_r, andb_true_r.
    destruct (0 <? a ("n" ++ s)%string); ring.
Qed.

Lemma index_ok (B : list (list Z)) s i : py_list_index (set_eqb s) B = Ok i -> 0 <= i < Z.of_nat (List.length B) /\ set_eqb s (nth (Z.to_nat i) B []) = true.
Proof.
  unfold py_list_index. destruct (find_idx (set_eqb s) B) as [k|] eqn:E; [|discriminate]. intros [= <-]. apply find_idx_some in E as (x & H1 & H2 & _).
  assert (k < List.length B)%nat by (apply nth_error_Some; congruence). split; [lia|]. rewrite Nat2Z.id. rewrite (nth_error_nth _ _ _ H1). auto.
Qed.
Lemma index_all n : (1 <= n)%nat -> exists i, py_list_index (set_eqb (zrange 0 (Z.of_nat n))) (gen_B n) = Ok i.
Proof.
  intros H. unfold py_list_index. destruct (find_idx_in (set_eqb (zrange 0 (Z.of_nat n))) (gen_B n) (zrange 0 (Z.of_nat n))) as [i ->]; [|apply set_eqb_spec; tauto|eauto].
  apply gen_B_spec. split; [apply zrange_sorted|]. split; [intros x Hx; apply In_zrange in Hx; auto|]. rewrite zrange_cons by lia. discriminate.
Qed.

Lemma closure_ok N i s old : (i <= 4)%nat -> topo N -> has_node N (vx s) None -> has_node N (vn i s) (Some (Fn old s)) ->
  match old with None => True | Some o => exists j F, has_node N (vn j o) F end -> ~ In ("c" ++ s)%string (map nd_name N) ->
  exists d, closure_step (st_of N) s = Ok (st_of (N ++ [d])) /\ is_node (vc i s) (Some (Fc s)) d /\ node_ok N d.
Proof.
  intros Hi T Hx Hn Ho Fr. destruct (index_all (i + 2)) as [c Ec]; [lia|].
  set (rows := [0; 1; c] :: map (fun k => [k; 0; k]) (filter (fun k => 0 <? k) (zrange 0 (Z.of_nat (i + 2))))).
  destruct (index_ok _ _ _ Ec) as [Hc1 Hc2].
  assert (FB : v_B (vn i s) = Some (gen_B (i + 2))).
  { assert (X := proj1 (vn_usable i s Hi)). unfold full in X. rewrite X. cbn [v_values vn mk_variable]. rewrite num_values_length. auto. }
  assert (CO : code_ok (vn i s) c) by (exists (gen_B (i + 2)); auto).
  assert (ST : forall x, In x (states_of (vn i s) c) <-> 0 <= x < nvals (vn i s)).
  { intros x. unfold states_of. rewrite FB. destruct (Z.ltb_spec c 0); [lia|]. rewrite <- (proj1 (set_eqb_spec _ _) Hc2 x), In_zrange, nvals_vn. lia. }
  destruct (explicit_cpm (vc i s) [vx s; vn i s] rows (repeat 1%Qc (List.length rows))) as (E & W & P & B).
  - cbn. constructor; [intros [X|[X|[]]]; discriminate|]. constructor; [intros [X|[]]; discriminate|constructor; [intros []|constructor]].
  - apply vc_usable; auto.
  - constructor; [apply vx_usable|constructor; [apply vn_usable; auto|constructor]].
  - intros row [<-|Hr].
    + exists 0, [1; c]. split; auto. split; [rewrite nvals_vc; lia|]. constructor; [apply full_code; [apply vx_usable|rewrite nvals_vx; lia]|]. constructor; auto.
    + apply in_map_iff in Hr as (k & <- & Hk). apply filter_In in Hk as [Hk _]. apply In_zrange in Hk. exists k, [0; k]. split; auto. split; [rewrite nvals_vc; lia|].
      constructor; [apply full_code; [apply vx_usable|rewrite nvals_vx; lia]|]. constructor; [|constructor]. apply full_code; [apply vn_usable; auto|rewrite nvals_vn; lia].
  - rewrite repeat_length. auto.
  - set (M := mkCpm [vc i s; vx s; vn i s] 1 rows (repeat 1%Qc (List.length rows))) in *. exists (mkNode (vc i s) M (Some (Fc s))). split; [|split; [split; auto|]].
    + unfold closure_step. cbn zeta. change ("n" ++ s)%string with (v_name (vn i s)). rewrite (has_get N (vn i s) (Some (Fn old s))) by auto. cbn [bind].
      change (v_values (vn i s)) with (num_values (i + 2)). fold (vc i s). rewrite FB, as_int_values. cbn [bind]. rewrite Ec. cbn [bind]. fold rows.
      change ("x" ++ s)%string with (v_name (vx s)). rewrite (has_get_new N (vx s) None) by auto. cbn [bind]. rewrite E. cbn [bind].
      change ("c" ++ s)%string with (v_name (vc i s)). rewrite (put_st N _ (vc i s) (Some (Fc s))) by auto. auto.
    + assert (SI : forall a, states_in (vc i s :: nvars N) a -> 0 <= a ("x" ++ s)%string < 2 /\ 0 <= a ("n" ++ s)%string < nvals (vn i s) /\ 0 <= a ("c" ++ s)%string < nvals (vc i s)).
      { intros a Sa. split; [apply (Sa (vx s)); right; eapply has_in; eauto|]. split; [apply (Sa (vn i s)); right; eapply has_in; eauto|apply (Sa (vc i s)); left; auto]. }
      exists [vx s; vn i s]. cbn [nd_M nd_v nd_F]. split; auto. split; [intros v [<-|[<-|[]]]; eapply has_in; eauto|]. split; [right; discriminate|]. split; auto. split; auto. split; auto. split; auto.
      split; [intros q; apply repeat_one|]. split; [|split; [|split]].
      * intros a b H. assert (H1 := H (vx s) (or_introl eq_refl)). assert (H2 := H (vn i s) (or_intror (or_introl eq_refl))). cbn [v_name vn vx mk_variable] in H1, H2. unfold Fc. rewrite H1, H2. auto.
      * intros a Sa. assert (X := Sa (vn i s) (or_intror (or_introl eq_refl))). rewrite nvals_vn in X. rewrite nvals_vc. cbn [v_name vn mk_variable] in X. unfold Fc. destruct (_ =? 0); lia.
      * intros a Sa. destruct (SI a Sa) as (S1 & S2 & S3). unfold M, rows. rewrite (closure_mass i s c a) by auto. unfold nd_name. cbn [nd_v vc v_name mk_variable]. unfold Fc.
        destruct (a ("x" ++ s)%string =? 0); [|destruct (Z.eqb_spec (a ("c" ++ s)%string) 0); congruence].
        destruct (Z.eqb_spec (a ("c" ++ s)%string) (a ("n" ++ s)%string)); cbn [andb]; congruence.
      * intros a Sa HH Ha. destruct (SI a Sa) as (S1 & S2 & S3). unfold M, rows. rewrite (closure_mass i s c a) by auto. unfold nd_name in Ha. cbn [nd_v vc v_name mk_variable] in Ha. rewrite Ha. unfold Fc.
        destruct (Z.eqb_spec (a ("x" ++ s)%string) 0) as [E0|E0]; [|auto]. rewrite Z.eqb_refl. cbn [andb].
        destruct Hn as (d & Hd & Ev & Ef). assert (X := HH d _ Hd Ef). unfold nd_name in X. rewrite Ev in X. cbn [vn v_name mk_variable] in X.
        assert (1 <= a ("n" ++ s)%string); [|destruct (Z.ltb_spec 0 (a ("n" ++ s)%string)); [auto|lia]].
        rewrite X. unfold Fn, fails. rewrite E0, Z.eqb_refl. destruct old as [o|]; [|lia]. destruct Ho as (j & F & Ho). assert (Y := Sa (vn j o) (or_intror (has_in _ _ _ Ho))). cbn [vn v_name mk_variable] in Y. lia.
Qed.

Definition c_node (is : nat * string) (d : node) : Prop := is_node (vc (fst is) (snd is)) (Some (Fc (snd is))) d.
Lemma closures_ok l : forall N i, (i + List.length l <= 5)%nat -> topo N -> (forall s, In s l -> has_node N (vx s) None) ->
  (forall k s, In (k, s) (combine (seq i (List.length l)) l) -> exists old, has_node N (vn k s) (Some (Fn old s)) /\ match old with None => True | Some o => exists j F, has_node N (vn j o) F end) ->
  NoDup l -> (forall s, In s l -> ~ In ("c" ++ s)%string (map nd_name N)) ->
  exists N', foldM closure_step l (st_of N) = Ok (st_of (N ++ N')) /\ topo (N ++ N') /\ Forall2 c_node (combine (seq i (List.length l)) l) N'.
Proof.
  induction l as [|s l IH]; intros N i HL T Hx HN ND Fr; cbn [List.length seq combine foldM].
  - exists []. rewrite app_nil_r. split; [auto|split; [auto|constructor]].
  - cbn in HL. destruct (HN i s (or_introl eq_refl)) as (old & H1 & H2).
    destruct (closure_ok N i s old) as (d & E & I & OK); auto; [lia|apply Hx; left; auto|apply Fr; left; auto|].
    rewrite E. cbn [bind]. inversion ND as [|? ? N1 N2]; subst. destruct (IH (N ++ [d]) (S i)) as (N' & E' & T' & F'); auto.
    + lia.
    + constructor; auto. unfold nd_name. destruct I as [-> _]. apply Fr. left; auto.
    + intros t Ht. apply has_app, Hx. right; auto.
    + intros k t Ht. destruct (HN k t (or_intror Ht)) as (old' & G1 & G2). exists old'. split; [apply has_app; auto|]. destruct old' as [o|]; auto.
      destruct G2 as (j & F & G2). exists j, F. apply has_app; auto.
    + intros t Ht. rewrite map_app, in_app_iff. intros [X|[X|[]]]; [apply (Fr t); [right; auto|auto]|]. unfold nd_name in X. destruct I as [EI _]. rewrite EI in X. cbn in X. injection X as ->. auto.
    + exists (d :: N'). rewrite <- app_assoc in E', T'. split; [exact E'|split; [exact T'|constructor; auto]].
Qed.
