(** Specification vocabulary for forecasts. *)
From Coq Require Import Reals List Arith.
From Verif.Model Require Import Base Xf Tensor Weights Particle.
From Verif.Spec Require Import WeightsSpec ParticleSpec ConvergeSpec.
Import ListNotations.
Local Open Scope nat_scope.

(** The mean of [phi] over step [i] (from zero) of the simulated paths of the [n] particles of filter [j], with the normalised weights
    [W] of the state they start from ... *)
Definition path_mean {X} (n j : nat) (phi : X -> R) (W : list R) (path : list (tstate X)) (i : nat) : R :=
  match nth_error path i with
  | Some x => sum_below n (fun q => nth q W 0 * phi (m_get (ts_val x) q j))%R
  | None => 0%R
  end.
(** ... of state [c]; *)
Definition forecast_mean {X} (lowest : R) (n j : nat) (phi : X -> R) (c : corr X) (path : list (tstate X)) (i : nat) : R :=
  path_mean n j phi (imp lowest (col (c_w c) j)) path i.
(** ... with equal weights. *)
Definition plain_mean {X} (n j : nat) (phi : X -> R) (path : list (tstate X)) (i : nat) : R := path_mean n j phi (repeat (/ INR n)%R n) path i.
