(** Vocabulary for floating point arithmetic, independent of the model: orders of summation, quality of an
    exponential function. *)
From Coq Require Import ZArith Reals List Permutation.
From Flocq Require Import Core.Core IEEE754.BinarySingleNaN.
Import ListNotations.
Open Scope R_scope.

Section FloatSpec.
  Context {prec emax : Z} {Hp : Prec_gt_0 prec} {He : Prec_lt_emax prec emax}.
  Notation float := (binary_float prec emax).

  (** Half the distance between 1 and the next number: 2^-24 for float32, 2^-53 for float64. *)
  Definition unit_roundoff : R := bpow radix2 (- prec).

  (** [s] is the sum of the numbers of [l], added up in some order and with some bracketing (one accumulator or
      several, a cascade of partial sums, ...), every addition rounded to the nearest. *)
  Inductive added_up : list float -> float -> Prop :=
  | Added_nothing : added_up [] (B754_zero false)
  | Added_one x : added_up [x] x
  | Added_two l r a b : added_up l a -> added_up r b -> added_up (l ++ r) (Bplus mode_NE a b)
  | Added_reordered l l' a : Permutation l l' -> added_up l a -> added_up l' a.
  Definition adds_up (sum : list float -> float) : Prop := forall l, added_up l (sum l).

  (** [f] computes the exponential function on the numbers up to zero, up to an absolute error [alpha], exactly at
      zero and at minus infinity, and never leaves [[0, 1]]. *)
  Definition exponential (alpha : R) (f : float -> float) : Prop :=
    (forall s, f (B754_zero s) = Bone) /\
    B2R (f (B754_infinity true)) = 0 /\ is_finite (f (B754_infinity true)) = true /\
    forall x, is_finite x = true -> B2R x <= 0 ->
      is_finite (f x) = true /\ 0 <= B2R (f x) <= 1 /\ Rabs (B2R (f x) - exp (B2R x)) <= alpha.
End FloatSpec.

Section FloatWeights.
  Context {prec emax : Z} {Hp : Prec_gt_0 prec} {He : Prec_lt_emax prec emax}.
  Notation float := (binary_float prec emax).

  (** The log weight an entry stands for: NaN and +inf are unusable, -inf counts as the lowest number of the dtype. *)
  Definition log_weight (x : float) : option R :=
    match x with
    | B754_nan | B754_infinity false => None
    | B754_infinity true => Some (- B2R (Bmax_float : float))
    | _ => Some (B2R x)
    end.
  (** The weight behind it, not normalised. *)
  Definition weight (x : float) : R := match log_weight x with Some r => exp r | None => 0 end.
End FloatWeights.
