(** Specification vocabulary for the fixed-lag smoother: expectations of functions of the whole path of the hidden process, and
    what is asked of the moves of the particles. *)
From Coq Require Import Reals List Bool Arith.
From Verif.Model Require Import Base Xf Tensor Weights Particle FilterLoop Smoothing.
From Verif.Spec Require Import WeightsSpec ParticleSpec GenealogySpec UnbiasedSpec FairSpec ConvergeSpec.
Import ListNotations.
Local Open Scope nat_scope.

(** The process that lists its own path, oldest value first: the path moves as its last value does. *)
Definition along {X Y} (d : X) (move : nat -> option Y -> (X -> R) -> X -> R) (t : nat) (y : option Y) (F : list X -> R) (past : list X) : R :=
  move t y (fun x => F (past ++ [x])) (last past d).
(** A path of good values. *)
Definition good_path {X} (good : X -> Prop) (past : list X) : Prop := past <> [] /\ Forall good past.
Definition movable_along {X Y} (good : X -> Prop) (movable : nat -> option Y -> (X -> R) -> Prop) (t : nat) (y : option Y) (F : list X -> R) : Prop :=
  forall past, good_path good past -> movable t y (fun x => F (past ++ [x])).

Section Each.
  Context {X D : Type}.
  Variable LD : law (nat -> D).
  (** As in [steady_moves], with a quantity that may differ between the particles: the particles of filter [j] move with independent
      errors. *)
  Record steady_each (good : X -> Prop) (usable : list xf -> Prop) (G : R) (n j : nat) (move : nat -> option (list xf) -> (X -> R) -> X -> R)
    (movable : nat -> option (list xf) -> (X -> R) -> Prop)
    (fp : D -> nat -> list X -> list X) (fx : D -> list xf -> nat -> list X -> list xf -> list xf -> list X)
    (fw : D -> list xf -> nat -> list X -> list xf -> list xf -> list xf) : Prop := {
    each_walk : forall t xs (f : nat -> X -> R) B a dflt, length xs = n -> Forall good xs -> (forall i, i < n -> movable t None (f i)) ->
      (forall i x, i < n -> good x -> (Rabs (f i x) <= B)%R) ->
      at_most LD (fun d => square (sum_below n (fun i => a i * f i (nth i (fp (d j) t xs) dflt)) - sum_below n (fun i => a i * move t None (f i) (nth i xs dflt))))%R
        (sum_below n (fun i => square (a i)) * square B)%R;
    each_propose : forall y t xs ws nws (f : nat -> X -> R) B a dflt, usable y -> length xs = n -> Forall good xs -> (forall i, i < n -> movable t (Some y) (f i)) ->
      (forall i x, i < n -> good x -> (Rabs (f i x) <= B)%R) ->
      at_most LD (fun d => square (sum_below n (fun i => a i * (exp (real_of (nth i (fw (d j) y t xs ws nws) NaN)) * f i (nth i (fx (d j) y t xs ws nws) dflt))) -
          sum_below n (fun i => a i * move t (Some y) (f i) (nth i xs dflt))))%R
        (sum_below n (fun i => square (a i)) * square (G * B))%R
  }.
  (** As in [steady_ahead]. *)
  Definition ahead_each (good : X -> Prop) (usable : list xf -> Prop) (H : R) (n j : nat) (move : nat -> option (list xf) -> (X -> R) -> X -> R)
    (movable : nat -> option (list xf) -> (X -> R) -> Prop)
    (fx : D -> list xf -> nat -> list X -> list xf -> list xf -> list X) (fw : D -> list xf -> nat -> list X -> list xf -> list xf -> list xf)
    (ahead : list xf -> nat -> X -> R) : Prop :=
    forall y t xs ws nws (f : nat -> X -> R) B a dflt, usable y -> length xs = n -> Forall good xs -> (forall i, i < n -> movable t (Some y) (f i)) ->
      (forall i x, i < n -> good x -> (Rabs (f i x) <= B)%R) ->
      at_most LD (fun d => square (sum_below n (fun i => a i * (exp (real_of (nth i (fw (d j) y t xs ws nws) NaN)) * f i (nth i (fx (d j) y t xs ws nws) dflt))) -
          sum_below n (fun i => a i * move t (Some y) (f i) (nth i xs dflt))))%R
        (sum_below n (fun i => square (a i * (H * exp (ahead y t (nth i xs dflt))))) * square B)%R.
End Each.

(** The mean of [phi] over the trajectories that the fixed-lag smoother returns for filter [j], with weights [W] for the trajectories. *)
Definition trajectory_mean {X} (n j : nat) (W : nat -> R) (phi : list X -> R) (out : list (mat X)) : R :=
  sum_below n (fun i => W i * phi (map (fun m => m_get m i j) out))%R.
