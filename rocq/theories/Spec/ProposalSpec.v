(** Specification vocabulary for the proposals. *)
From Coq Require Import Reals List Bool Arith.
From Verif.Model Require Import Base Xf Tensor Weights Particle Mode Proposal.
From Verif.Spec Require Import WeightsSpec.
Import ListNotations.
Local Open Scope R_scope.

(** Density of the normal distribution. *)
Definition gauss (mean sd x : R) : R := / (sd * sqrt (2 * PI)) * exp (- ((x - mean) * (x - mean)) / (2 * (sd * sd))).

(** A hidden process with normal transition: mean [f], standard deviation [g]. *)
Definition normal_hidden (M : ssm) (f g : nat -> nat -> R -> R) : Prop :=
  forall t j x, 0 < g t j x /\ mean_scale M t j (Fin x) = (Fin (f t j x), Fin (g t j x)) /\
    forall v, hid_logp M t j (Fin x) (Fin v) = Fin (ln (gauss (f t j x) (g t j x) v)).

(** Observations y = a x + b + s * noise with normal noise. *)
Definition linear_observations (M : ssm) (a b s : nat -> R) : Prop :=
  forall j, 0 < s j /\ par_a M j = Fin (a j) /\ par_b M j = Fin (b j) /\ par_s M j = Fin (s j) /\
    forall t x y, obs_logp M t j (Fin x) (Fin y) = Fin (ln (gauss (a j * x + b j) (s j) y)).

(** Distribution of y given the previous state: a x + b + s*noise for x normal with mean [m] and deviation [g] is
    normal with mean a m + b and variance s^2 + a^2 g^2. *)
Definition predictive_density (a b s m g y : R) : R := gauss (a * m + b) (sqrt (s * s + a * a * (g * g))) y.

(** Automatic differentiation is exact for [f]: [autodiff] returns the first and second derivative. *)
Definition exact_derivatives (grad hess : xf -> xf) (f f' f'' : R -> R) : Prop :=
  forall x, derivable_pt_lim f x (f' x) /\ derivable_pt_lim f' x (f'' x) /\
    grad (Fin x) = Fin (f' x) /\ hess (Fin x) = Fin (f'' x).

(** Derivatives that are finite at finite locations. *)
Definition finite_derivatives (grad hess : xf -> xf) : Prop :=
  forall x, (exists d, grad (Fin x) = Fin d) /\ (exists d, hess (Fin x) = Fin d).
Definition not_infinite (x : xf) : Prop := match x with PInf | NInf => False | _ => True end.
Definition finite_hessian (grad hess : list xf -> list xf) (d : nat) : Prop :=
  forall l, length l = d -> length (grad l) = d /\ length (hess l) = d /\ Forall not_infinite (hess l).

(** A usable normal distribution: finite location, finite positive standard deviation. *)
Definition proper (k : xf * xf) : Prop := exists m s, k = (Fin m, Fin s) /\ 0 < s.

(** Average; [mass] (Spec/WeightsSpec.v) of a log-likelihood is its likelihood, zero for NaN and +inf. *)
Definition mean_of (l : list R) : R := Rsum l / INR (length l).

(** The outcomes a categorical variable can have. *)
Definition categorical_ok (pick : nat -> nat -> nat -> list xf -> nat) : Prop :=
  forall r i j probs, (exists k, nth k probs NaN <> Fin 0 /\ (k < length probs)%nat) ->
    (pick r i j probs < length probs)%nat /\ nth (pick r i j probs) probs (Fin 0) <> Fin 0.
