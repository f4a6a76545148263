(** Specification for C121: the mean squared error of residual resampling, from the fractional parts of N times the weights. *)
From Coq Require Import Reals List.
From Verif.Spec Require Import ParticleSpec ConvergeSpec.
Import ListNotations.
Open Scope R_scope.

(** What is left of N times the weight of particle [i] after its sure copies. *)
Definition left_over (W : list R) (i : nat) : R := frac_part (INR (length W) * nth i W 0).
(** With T the sum of what is left: T independent draws in proportion to it, each with the variance of [F] in that proportion,
    and a mean over N. *)
Definition residual_error (W : list R) (F : nat -> R) : R :=
  let n := length W in
  (sum_below n (fun i => left_over W i * (F i * F i))
   - sum_below n (fun i => left_over W i * F i) * sum_below n (fun i => left_over W i * F i) / sum_below n (left_over W)) / (INR n * INR n).
