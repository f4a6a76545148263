(** Specification vocabulary for the error of the auxiliary particle filter: what is asked of its look-ahead weights. *)
From Coq Require Import Reals List Bool Arith.
From Verif.Model Require Import Base Xf Tensor Weights Particle FilterLoop.
From Verif.Spec Require Import WeightsSpec ResamplingSpec ParticleSpec UnbiasedSpec FairSpec ConvergeSpec.
Import ListNotations.
Local Open Scope nat_scope.

Section Auxiliary.
  Context {X U D : Type}.
  Variable LU : law (nat -> U).
  Variable LD : law (nat -> D).

  (** As [steady_resampling], for log weights [l] that the resampling function normalises itself: particle [i] has the weight
      [exp (l_i)] divided by their sum. *)
  Definition shares (l : list xf) (i : nat) : R := (exp (real_of (nth i l NaN)) / Rsum (map (fun v => exp (real_of v)) l))%R.
  Definition steady_choice (kappa : R) (n b : nat) (fr : bool -> U -> list xf -> list nat) : Prop :=
    forall k l F B, k < b -> Forall is_fin l -> length l = n -> (forall i, i < n -> (Rabs (F i) <= B)%R) ->
      at_most LU (fun u => square (/ INR n * Rsum (map F (fr false (u k) l)) - sum_below n (fun i => shares l i * F i)))%R
        (kappa * square B / INR n)%R.

  (** Filter [j]: the look-ahead weight of a particle depends on that particle only and is at most [P]; the importance weight of a
      proposed particle is at most [H] times the look-ahead weight of the particle it comes from; the particles move
      with independent errors. *)
  Record steady_ahead (good : X -> Prop) (usable : list xf -> Prop) (P H : R) (n j : nat) (move : nat -> option (list xf) -> (X -> R) -> X -> R)
    (movable : nat -> option (list xf) -> (X -> R) -> Prop)
    (fx : D -> list xf -> nat -> list X -> list xf -> list xf -> list X) (fw : D -> list xf -> nat -> list X -> list xf -> list xf -> list xf)
    (fg : nat -> list xf -> nat -> list X -> list xf) (ahead : list xf -> nat -> X -> R) : Prop := {
    ahead_look : forall y t xs, usable y -> Forall good xs -> fg j y t xs = map (fun x => Fin (ahead y t x)) xs;
    ahead_most : forall y t x, usable y -> good x -> (exp (ahead y t x) <= P)%R;
    ahead_weights : forall d y t xs ws nws i dflt, supp LD d -> usable y -> length xs = n -> Forall good xs -> i < n ->
      (exp (real_of (nth i (fw (d j) y t xs ws nws) NaN)) <= H * exp (ahead y t (nth i xs dflt)))%R;
    ahead_propose : forall y t xs ws nws f B a dflt, usable y -> length xs = n -> Forall good xs -> movable t (Some y) f ->
      (forall x, good x -> (Rabs (f x) <= B)%R) ->
      at_most LD (fun d => square (sum_below n (fun i => a i * (exp (real_of (nth i (fw (d j) y t xs ws nws) NaN)) * f (nth i (fx (d j) y t xs ws nws) dflt))) -
          sum_below n (fun i => a i * move t (Some y) f (nth i xs dflt))))%R
        (sum_below n (fun i => square (a i * (H * exp (ahead y t (nth i xs dflt))))) * square B)%R
  }.
End Auxiliary.
