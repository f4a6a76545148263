(** What sampling a multivariate normal by inversion of quasi-random points should deliver. *)
From Coq Require Import Reals List.
From Verif.Model Require Import Base Xf Prior Context Qmc.
Import ListNotations.
Local Open Scope list_scope.
Local Open Scope nat_scope.

(** [quantile] inverts the distribution function [cdf] on the open unit interval. *)
Definition inverts (cdf quantile : R -> R) : Prop := forall p, (0 < p < 1)%R -> cdf (quantile p) = p.
(** The sum of [f j] over all [j] below [n]. *)
Fixpoint sum_below (n : nat) (f : nat -> R) : R := match n with 0 => 0%R | S m => (sum_below m f + f m)%R end.
(** A square matrix of size [d]. *)
Definition square_matrix (d : nat) (a : list (list R)) : Prop := List.length a = d /\ Forall (fun r => List.length r = d) a.
Definition lower_triangular (d : nat) (a : list (list R)) : Prop :=
  forall i j, i < d -> (nth i (nth i a []) 0 <> 0)%R /\ (i < j -> nth j (nth i a []) 0%R = 0%R).
(** The samples successive calls of QuasiMultivariateNormal.sample return, and the engine left behind. *)
Fixpoint normals (eps : R) (sobol : nat -> nat -> list R) (uniform : nat -> list R) (quantile : R -> R) (loc : list R) (tril : list (list R))
    (e : engine) (shapes : list (list nat)) : engine * list (list R) :=
  match shapes with
  | [] => (e, [])
  | s :: r => let (e1, x) := quasi_normal eps sobol uniform quantile e s loc tril in
              let (e2, y) := normals eps sobol uniform quantile loc tril e1 r in (e2, x ++ y)
  end.
