(** Model of pyfilter/inference/utils.py:10-76 (calc_mean_chol, construct_mvn) and of
    pyfilter/inference/batch/mcmc/proposals/symmetric_mh.py:13-23 for parameters of any number of components.  Numbers are
    real (no rounding); a tensor of shape [B x p] is a function of the particle and the component. *)
From Coq Require Import Reals List Bool Arith.
From Verif.Model Require Import Base.
Import ListNotations.
Local Open Scope nat_scope.

Definition vec := nat -> R.
Definition matrix := nat -> nat -> R.
Definition total (n : nat) (f : nat -> R) : R := fold_right Rplus 0%R (map f (seq 0 n)).

(** torch.linalg.cholesky_ex of the leading [p x p] block of a symmetric matrix; [None]: info > 0, a pivot is not
    positive.  LAPACK computes the same factor in another order of operations. *)
Fixpoint cholesky (p : nat) (a : matrix) : option matrix :=
  match p with
  | O => Some (fun _ _ => 0%R)
  | S p =>
      if Rlt_dec 0 (a 0 0) then
        let l := sqrt (a 0 0) in
        let c i := (a (S i) 0%nat / l)%R in
        match cholesky p (fun i j => a (S i) (S j) - c i * c j)%R with
        | Some below => Some (fun i j => match i, j with
                                         | O, O => l
                                         | O, S _ => 0%R
                                         | S i, O => c i
                                         | S i, S j => below i j
                                         end)
        | None => None
        end
      else None
  end.

Section Mvn.
  (** The number of particles and of components; the particles and their normalised weights. *)
  Variables B p : nat.
  Variable x : matrix.
  Variable w : vec.

  (** utils.py:47: [w @ x]. *)
  Definition mvn_mean (i : nat) : R := total B (fun k => w k * x k i)%R.
  (** utils.py:48-49: [(w * centralized.t()).matmul(centralized)]. *)
  Definition mvn_cov (i j : nat) : R := total B (fun k => w k * (x k i - mvn_mean i) * (x k j - mvn_mean j))%R.
  (** utils.py:51-54: the factor, or the diagonal of standard deviations. *)
  Definition mvn_chol : matrix :=
    match cholesky p mvn_cov with
    | Some l => l
    | None => fun i j => if i =? j then sqrt (mvn_cov i i) else 0%R
    end.

  (** The argument check of torch's MultivariateNormal: scale_tril is lower triangular with a positive diagonal.
      The check is made when validation is on, which is the default. *)
  Definition lower_cholesky (l : matrix) : bool :=
    forallb (fun i => forallb (fun j => if Rlt_dec 0 (l i i) then if i <? j then if Req_EM_T (l i j) 0 then true else false else true else false)
      (seq 0 p)) (seq 0 p).
  (** utils.py:59-76 construct_mvn: location and scale_tril of the distribution; with or without a quasi-random engine. *)
  Definition construct_mvn (scale : R) : res (vec * matrix) :=
    let l i j := (scale * mvn_chol i j)%R in
    if lower_cholesky l then Ok (mvn_mean, l) else Raise ValueError.
  (** symmetric_mh.py:13-23: [x]: the stacked unconstrained parameters, [w]: the normalised weights. *)
  Definition symmetric_kernel : res (vec * matrix) := construct_mvn (11 / 10).
End Mvn.
(** A sample of torch's MultivariateNormal and utils.py:39 of QuasiMultivariateNormal, given standard normal noise. *)
Definition mvn_draw (p : nat) (k : vec * matrix) (z : vec) : vec := fun i => (fst k i + total p (fun j => snd k i j * z j))%R.
