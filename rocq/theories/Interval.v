(** Model of the confidence intervals of estimates, over the real numbers: cpm.py 874-894
    (end of [Cpm.get_prob_and_cov]), branch.py 822-837, 918-933 and
    demos/pf_map/batch.py 296-311. *)
From Coq Require Import Reals.
Open Scope R_scope.

(** [scipy.stats.norm.pdf] *)
Definition norm_pdf (x : R) : R := exp (- (x ^ 2) / 2) / sqrt (2 * PI).
(** cpm.py 879 *)
Definition z_of (conf_p : R) : R := norm_pdf (1 - (1 - conf_p) * (1 / 2)).
(** cpm.py 875-881, method 'MLE': probability and interval; [u] is the probability that the rows
    leave open, [prob_Cs] and [var] the estimate from the samples and its variance *)
Definition mle_prob (prob_C u prob_Cs : R) : R := prob_C + u * prob_Cs.
Definition mle_cint (prob_C u prob_Cs var conf_p : R) : R * R :=
  (prob_C + u * (prob_Cs + z_of conf_p * sqrt var * -1), prob_C + u * (prob_Cs + z_of conf_p * sqrt var * 1)).

Section Beta.
(** [scipy.stats.beta.ppf(q, a, b)] *)
Variable ppf : R -> R -> R -> R.
(** cpm.py 891-893, branch.py 834-837, 930-933, batch.py 308-311 *)
Definition bayes_cint (base u a b conf_p : R) : R * R :=
  (base + u * ppf (1 / 2 * (1 - conf_p)) a b, base + u * ppf (1 - 1 / 2 * (1 - conf_p)) a b).
End Beta.
