(** Model of the attenuation of demos/pf_map/batch.py 163-227 [gmpe_cam03] and of the failure
    probability of a road (batch.py 67-82), over the real numbers of the standard library.
    Floating point is not modelled; constants are the decimals of the source. *)
From Coq Require Import List String Reals.
From Verif Require Import Py.
Import ListNotations.
Open Scope R_scope.

(** batch.py 179-181; [c9] and [c10] are not used in the source *)
Definition c1 : R := - (6104 / 10000).
Definition c2 : R := 451 / 1000.
Definition c3 : R := - (2090 / 10000).
Definition c4 : R := - (1158 / 1000).
Definition c5 : R := - (255 / 100000).
Definition c6 : R := 141 / 1000000.
Definition c7 : R := 299 / 1000.
Definition c8 : R := 503 / 1000.
Definition c11 : R := 1110 / 1000.
Definition c12 : R := - (793 / 10000).
Definition c13 : R := 543 / 1000.
Definition r1 : R := 70.
Definition r2 : R := 130.
Definition M1 : R := 716 / 100.

(** batch.py 202-214: [ln_Sa] of one road at distance [r] *)
Definition ln_Sa (Mw r : R) : R :=
  let f1 := c2 * Mw + c3 * (85 / 10 - Mw) ^ 2 in
  let d := sqrt (r ^ 2 + (c7 * exp (c8 * Mw)) ^ 2) in
  let f2 := c4 * ln d + (c5 + c6 * Mw) * r in
  let f3 := if Rle_dec r r1 then 0
            else if Rle_dec r r2 then c7 * ln (r / r1)
            else c7 * ln (r / r1) + c8 * ln (r / r2) in
  c1 + f1 + f2 + f3.
(** batch.py 217-218 [np.clip] between the ends of [std_eps_Mw] and [std_eps_rrup] (182-183) *)
Definition clip (x lo hi : R) : R := Rmin (Rmax x lo) hi.
(** batch.py 222-225: no road enters *)
Definition std_al (Mw : R) : R := if Rlt_dec Mw M1 then c11 + c12 else c13.

Section Functions.
(** the interpolation [bisplev(., ., std_ep_f)], batch.py 194-195, 219 *)
Variable spline : R -> R -> R.
Definition std_ep (Mw r : R) : R := spline (clip Mw 5 (82 / 10)) (clip r 1 70).
(** batch.py 163-227 [gmpe_cam03] *)
Definition gmpe_cam03 (Mw : R) (Rrup : dict R) : res (dict R * R * dict R) :=
  if Rle_dec 6 Mw then
    if Rle_dec Mw (85 / 10) then
      Ok (map (fun er => (fst er, ln_Sa Mw (snd er))) Rrup, std_al Mw, map (fun er => (fst er, std_ep Mw (snd er))) Rrup)
    else Err AssertionError
  else Err AssertionError.
(** [norm.cdf(x, mean, standard deviation)] *)
Variable norm_cdf : R -> R -> R -> R.
(** batch.py 67-82, 110-125: mean and failure probability of a road at distance [r] whose type
    has median [med] and dispersion [disp] *)
Definition road_mean (Mw r med : R) : R := ln med - ln_Sa Mw r.
Definition road_pf (Mw r med disp : R) : R :=
  norm_cdf 0 (road_mean Mw r med) (sqrt (std_al Mw ^ 2 + std_ep Mw r ^ 2 + disp ^ 2)).
End Functions.
