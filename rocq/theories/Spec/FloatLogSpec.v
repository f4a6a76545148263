(** Vocabulary for the log-likelihood in floating point arithmetic, independent of the model. *)
From Coq Require Import ZArith Reals List.
From Flocq Require Import Core.Core IEEE754.BinarySingleNaN.
From Verif.Spec Require Import WeightsSpec.
Import ListNotations.
Open Scope R_scope.

Section FloatLogSpec.
  Context {prec emax : Z}.
  Notation float := (binary_float prec emax).

  (** [f] computes the logarithm of positive numbers with relative error [beta], and minus infinity at zero. *)
  Definition logarithm (beta : R) (f : float -> float) : Prop :=
    (forall s, f (B754_zero s) = B754_infinity true) /\
    forall x, is_finite x = true -> 0 < B2R x ->
      is_finite (f x) = true /\ Rabs (B2R (f x) - ln (B2R x)) <= beta * Rabs (ln (B2R x)).

  (** The importance weight behind a log weight (a number or minus infinity). *)
  Definition importance (x : float) : R := match x with B754_infinity true => 0 | _ => exp (B2R x) end.
  Definition number_or_ninf (x : float) : Prop := is_finite x = true \/ x = B754_infinity true.
  (** The weighted mean of the importance weights. *)
  Definition weighted (w iw : list float) : R := Rsum (map (fun cx => B2R (fst cx) * importance (snd cx)) (combine w iw)).
  (** [m] is the largest number among them. *)
  Definition largest (m : float) (iw : list float) : Prop :=
    is_finite m = true /\ In m iw /\ forall x, In x iw -> is_finite x = true -> B2R x <= B2R m.
End FloatLogSpec.
