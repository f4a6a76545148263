(** The textbook criterion behind the rule-of-thumb bandwidths of jittering.py. *)
From Coq Require Import Reals.
Local Open Scope R_scope.

(** Asymptotic mean integrated squared error of a Gaussian kernel density estimate with bandwidth [h] from [ess] samples
    of a [d]-dimensional normal with unit covariance, up to the common factor [(4 pi)^(-d/2)]: a variance term
    [1 / (ess h^d)] and a squared bias [h^4 / 4] times [d (d + 2) / 4]. *)
Definition integrated_error (d : nat) (ess h : R) : R := 1 / (ess * h ^ d) + h ^ 4 / 4 * (INR d * (INR d + 2) / 4).
(** [h] is the only positive bandwidth with the least such error. *)
Definition best_bandwidth (d : nat) (ess h : R) : Prop :=
  0 < h /\ forall h', 0 < h' -> h' <> h -> integrated_error d ess h < integrated_error d ess h'.
