(** Vocabulary of linear algebra for Props/ProposalMxProps.v: independent of the code. *)
From Coq Require Import Reals.
From mathcomp Require Import all_ssreflect all_algebra.
From Verif.Spec Require Import RealField.
Set Implicit Arguments.
Unset Strict Implicit.
Unset Printing Implicit Defensive.
Local Open Scope ring_scope.

(** The number vᵀ A v. *)
Definition qf n (A : 'M[R]_n) (v : 'cV[R]_n) : R := (v^T *m A *m v) 0 0.
(** Symmetric positive definite matrices. *)
Definition spd n (A : 'M[R]_n) : Prop := A^T = A /\ forall v, v <> 0 -> Rlt 0 (qf A v).
(** [torch.linalg.cholesky_ex(A)[0]]: the lower triangular factor of every positive definite matrix. *)
Definition cholesky_ok (chol : forall n, 'M[R]_n -> 'M[R]_n) : Prop := forall n (A : 'M[R]_n), spd A ->
  chol n A *m (chol n A)^T = A /\ (forall i j : 'I_n, (i < j)%N -> chol n A i j = 0) /\ forall i, Rlt 0 (chol n A i i).
(** Diagonal matrix of the squares. *)
Definition diag_sq n (s : 'cV[R]_n) : 'M[R]_n := diag_mx (\row_i (s i 0 * s i 0)).
(** Log density of a normal vector with mean [mu] and covariance [S]. *)
Definition log_mvn n (mu : 'cV[R]_n) (S : 'M[R]_n) (y : 'cV[R]_n) : R :=
  (- / 2 * (INR n * ln (2 * PI) + ln (\det S) + qf (invmx S) (y - mu)%R))%coqR.
