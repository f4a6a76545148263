(** Specification vocabulary for log densities of whole trajectories. *)
From Coq Require Import Reals List Arith.
From Coquelicot Require Import Coquelicot.
From Verif.Model Require Import Base Xf.
From Verif.Spec Require Import WeightsSpec ConvergeSpec.
Import ListNotations.
Local Open Scope nat_scope.

Section CompleteSpec.
  Context {X Y : Type}.
  Variables (li : X -> R) (lh : nat -> X -> X -> R) (lo : nat -> X -> Y -> R).
  Variable every : nat.
  (** The log density of a path together with its observations, the [q]-th of which (from zero) is made at time
      [1 + every * q]. *)
  Definition complete (d : X) (path : list X) (ys : list Y) : R :=
    (li (nth 0 path d) + sum_below (length path - 1)%nat (fun t => lh t (nth t path d) (nth (S t) path d)) +
     Rsum (map (fun p => let time := (1 + every * fst p)%nat in lo time (nth time path d) (snd p)) (combine (seq 0 (length ys)) ys)))%R.
End CompleteSpec.

(** * Models that depend on a parameter *)
Section Parametric.
  Context {X Y : Type}.
  Variables (start : R -> X -> R) (dens : R -> nat -> X -> X -> R) (g : R -> nat -> X -> Y -> R).
  Variable ys : list Y.
  (** The likelihood of what is observed at a time; nothing is observed at time 0 and after the last observation. *)
  Definition seen (th : R) (t : nat) (x : X) : R :=
    match t with O => 1%R | S q => match nth_error ys q with Some y => g th t x y | None => 1%R end end.
  Definition positive_at (th : R) : Prop :=
    (forall x, (0 < start th x)%R) /\ (forall t x x', (0 < dens th t x x')%R) /\ (forall t x y, (0 < g th t x y)%R).
  Definition differentiable_at (th : R) : Prop :=
    (forall x, ex_derive (fun v => start v x) th) /\ (forall t x x', ex_derive (fun v => dens v t x x') th) /\
    (forall t x y, ex_derive (fun v => g v t x y) th).
End Parametric.

(** The number a computation returns (0 if there is none). *)
Definition real_result (r : res xf) : R := match r with Ok (Fin x) => x | _ => 0%R end.
