(** Vocabulary of C101: a search of brc.py made in two runs instead of one. *)
From Coq Require Import ZArith List QArith Qcanon.
From Verif Require Import Py Num Vari Brc.
Import ListNotations.
Open Scope Z_scope.
Open Scope list_scope.

(** the same settings with another limit on the calls of the system function *)
Definition with_calls (g : config) (n : Z) : config :=
  mkCfg n (g_max_nb g) (g_pf_bnd_wr g) (g_max_rules g) (g_surv_first g) (g_active g).

(** The monitors of two runs in one.  Every series of a run has one entry for
    each call and a last one for the end; the last one of the first run is
    dropped.  The series [no_sf] starts with 0 and counts the calls; the counts
    of the second run go on from [a]. *)
Definition joined_monitor (a : Z) (m1 m2 : monitor) : monitor :=
  mkMon (removelast (m_pf_up m1) ++ m_pf_up m2) (removelast (m_pf_low m1) ++ m_pf_low m2)
        (removelast (m_pr_bu m1) ++ m_pr_bu m2)
        (removelast (m_no_br m1) ++ m_no_br m2) (removelast (m_no_bs m1) ++ m_no_bs m2)
        (removelast (m_no_bf m1) ++ m_no_bf m2) (removelast (m_no_bu m1) ++ m_no_bu m2)
        (removelast (m_no_rs m1) ++ m_no_rs m2) (removelast (m_no_rf m1) ++ m_no_rf m2)
        (removelast (m_no_ra m1) ++ m_no_ra m2)
        (m_no_sf m1 ++ map (Z.add a) (tl (m_no_sf m2)))
        (removelast (m_min_len_rf m1) ++ m_min_len_rf m2) (removelast (m_avg_len_rf m1) ++ m_avg_len_rf m2)
        (m_out_flag m2).

(** the outcome of a first run of [a] calls and of a second one, in one *)
Definition joined (a : Z) (s1 s2 : rstate) : rstate :=
  mkSt (s_brs s2) (s_rules s2) (s_sys s1 ++ s_sys s2) (joined_monitor a (s_mon s1) (s_mon s2))
       (mkCtrl (a + c_no_sf (s_ctrl s2)) (c_pr_bu (s_ctrl s2)) (c_pf_low (s_ctrl s2))).

(** the bounds of a finished run are close enough for the tolerance [wr] *)
Definition close_enough (wr : Qc) (s : rstate) : Prop :=
  (last (m_pr_bu (s_mon s)) 1 < last (m_pf_low (s_mon s)) 0 * wr)%Qc.
