(** Weighted averages of real numbers, independent of the model; the weights need not add up to one. *)
From Coq Require Import Reals List.
From Verif.Spec Require Import WeightsSpec.
Import ListNotations.
Open Scope R_scope.

(** The average of [f x], with weights [w]. *)
Definition averaged (w x : list R) (f : R -> R) : R := Rsum (map (fun p => fst p * f (snd p)) (combine w x)) / Rsum w.
Definition average_of (w x : list R) : R := averaged w x (fun a => a).
(** The average size of the numbers: the scale of the error of their average. *)
Definition size_of (w x : list R) : R := averaged w x Rabs.
(** The average squared distance to the average. *)
Definition variance_of (w x : list R) : R := averaged w x (fun a => (a - average_of w x) * (a - average_of w x)).
