(** What the quasi-random engine should deliver. *)
From Coq Require Import Reals List String.
From Verif.Model Require Import Base Xf Prior Context Qmc.
Import ListNotations.
Local Open Scope list_scope.
Local Open Scope nat_scope.

(** A Sobol engine: points of the unit cube, closed at both ends to allow for rounding. *)
Definition sobol_ok (sobol : nat -> nat -> list R) : Prop :=
  forall d k, List.length (sobol d k) = d /\ Forall (fun p => (0 <= p <= 1)%R) (sobol d k).
(** [u] is [x] modulo one. *)
Definition modulo_one (x u : R) : Prop := (0 <= u < 1)%R /\ exists z : Z, x = (u + IZR z)%R.
(** [p] is [u], moved towards one half by the factor [1 - eps]. *)
Definition towards_half (eps u p : R) : Prop := (p - 1 / 2 = (1 - eps) * (u - 1 / 2))%R.
(** The points returned by successive calls, and the engine left behind. *)
Fixpoint drawn (eps : R) (sobol : nat -> nat -> list R) (uniform : nat -> list R) (e : engine) (shapes : list (list nat)) : engine * list (list R) :=
  match shapes with
  | [] => (e, [])
  | s :: r => let (e1, x) := engine_sample eps sobol uniform e s in let (e2, y) := drawn eps sobol uniform e1 r in (e2, x ++ y)
  end.
