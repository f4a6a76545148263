(** Specification vocabulary for normal distributions fitted to weighted particles. *)
From Coq Require Import Reals List Arith.
From Verif.Spec Require Import WeightsSpec UnbiasedSpec ConvergeSpec.
Local Open Scope nat_scope.

Section MvnSpec.
  Variables B p : nat.
  Variable x : nat -> nat -> R.
  Variable w : nat -> R.
  Definition probabilities : Prop := (forall k, k < B -> (0 <= w k)%R) /\ sum_below B w = 1%R.
  (** The average of a quantity over the particles, their means and covariances. *)
  Definition weighted_average (f : nat -> R) : R := sum_below B (fun k => w k * f k)%R.
  Definition mean_of (i : nat) : R := weighted_average (fun k => x k i).
  Definition covariance_of (i j : nat) : R := weighted_average (fun k => (x k i - mean_of i) * (x k j - mean_of j))%R.
  (** The combination [v] of the components has one value on all particles that have weight. *)
  Definition flat (v : nat -> R) : Prop :=
    forall k k', k < B -> k' < B -> (0 < w k)%R -> (0 < w k')%R ->
      sum_below p (fun i => v i * x k i)%R = sum_below p (fun i => v i * x k' i)%R.
  Definition nonzero (v : nat -> R) : Prop := exists i, i < p /\ v i <> 0%R.
  (** Component [i] has one value on all particles that have weight. *)
  Definition constant (i : nat) : Prop := forall k k', k < B -> k' < B -> (0 < w k)%R -> (0 < w k')%R -> x k i = x k' i.
  (** At most [m] particles have weight. *)
  Definition few (m : nat) : Prop := exists heavy, length heavy <= m /\ forall k, k < B -> (0 < w k)%R -> In k heavy.
End MvnSpec.

(** Lower triangular, with a positive diagonal. *)
Definition cholesky_factor (p : nat) (l : nat -> nat -> R) : Prop :=
  (forall i, i < p -> (0 < l i i)%R) /\ (forall i j, i < p -> j < p -> i < j -> l i j = 0%R).
Definition positive_definite (p : nat) (a : nat -> nat -> R) : Prop :=
  forall v, nonzero p v -> (0 < sum_below p (fun i => sum_below p (fun j => v i * a i j * v j)))%R.
(** Noise with mean zero and uncorrelated components of variance one. *)
Definition white (p : nat) (N : law (nat -> R)) : Prop :=
  (forall i, i < p -> averages N (fun z => z i) 0%R) /\
  (forall i j, i < p -> j < p -> averages N (fun z => z i * z j)%R (if Nat.eq_dec i j then 1%R else 0%R)).
