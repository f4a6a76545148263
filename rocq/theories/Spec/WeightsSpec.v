(** Specification vocabulary for weights: plain real sums. *)
From Coq Require Import Reals List.
From Verif.Model Require Import Xf.
Import ListNotations.
Open Scope R_scope.

Definition Rsum (l : list R) : R := fold_right Rplus 0 l.

(** A probability vector. *)
Definition prob_vec (p : list R) : Prop := (forall x, In x p -> 0 <= x) /\ Rsum p = 1.

(** The log weight an entry stands for: NaN and +inf are unusable, -inf counts as the lowest finite number. *)
Definition level (lowest : R) (x : xf) : option R :=
  match x with Fin r => Some r | NInf => Some lowest | PInf => None | NaN => None end.

(** Unnormalised mass of an entry. *)
Definition mass (lowest : R) (x : xf) : R :=
  match level lowest x with Some r => exp r | None => 0 end.

(** Expectation of [f] under weights [w] at points [v]. *)
Definition expect (f : R -> R) (w v : list R) : R :=
  Rsum (map (fun p => fst p * f (snd p)) (combine w v)).

(** Importance weight behind a log weight that is finite or -inf. *)
Definition lik (x : xf) : R := match x with Fin r => exp r | _ => 0 end.

(** Expectation of a product, and the covariance in its textbook form E[ab] - E[a]E[b]. *)
Definition expect2 (w a b : list R) : R :=
  Rsum (map (fun p => fst p * (fst (snd p) * snd (snd p))) (combine w (combine a b))).
Definition cov (w a b : list R) : R :=
  expect2 w a b - expect (fun x => x) w a * expect (fun x => x) w b.

(** Neither NaN nor +inf. *)
Definition usable (lowest : R) (x : xf) : Prop := exists r, level lowest x = Some r.
