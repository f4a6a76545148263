(** Two-dimensional tensors as index functions with a shape.  Dimension 0 is the particle dimension, dimension 1
    the dimension of the parallel filters (pyfilter/filters/particle/base.py:44-48, batch shape appended to the
    particle count). *)
From Coq Require Import List Arith.
From Verif.Model Require Import Base.
Import ListNotations.

Record mat (A : Type) : Type := Mat { m_rows : nat; m_cols : nat; m_get : nat -> nat -> A }.
Arguments Mat {A}. Arguments m_rows {A}. Arguments m_cols {A}. Arguments m_get {A}.

(** Column [j], the slice [m[:, j]]. *)
Definition col {A} (m : mat A) (j : nat) : list A := map (fun i => m_get m i j) (seq 0 (m_rows m)).
(** Row [i], the slice [m[i]]. *)
Definition row {A} (m : mat A) (i : nat) : list A := map (fun j => m_get m i j) (seq 0 (m_cols m)).

(** [tensor.moveaxis(0, 1)] of a two-dimensional tensor. *)
Definition moveaxis {A} (m : mat A) : mat A := Mat (m_cols m) (m_rows m) (fun i j => m_get m j i).

(** Tensor whose rows are computed one by one; every computed row must have [n] entries. *)
Definition of_rows {A} (d : A) (n : nat) (rows : list (list A)) : mat A :=
  Mat (length rows) n (fun i j => nth j (nth i rows []) d).
