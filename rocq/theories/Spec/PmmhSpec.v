(** Metropolis-Hastings, one chain at a time. *)
From Coq Require Import Reals List Arith.
From Verif.Model Require Import Xf Pmmh.
Import ListNotations.

(** [B] chains. *)
Definition chains_ok {T F K} (B : nat) (c : @chains T F K) : Prop := List.length (positions c) = B /\ List.length (results c) = B.
(** Every filter run treats chain [b] by itself: [f b theta] is its result. *)
Definition run_ok {T F} (B : nat) (run : list T -> list F) (f : nat -> T -> F) : Prop :=
  forall rows, List.length rows = B -> List.length (run rows) = B /\ forall b r, nth_error rows b = Some r -> nth_error (run rows) b = Some (f b r).
(** A density is evaluated for every row. *)
Definition log_prob_ok {T K} (log_prob : K -> list T -> list xf) : Prop := forall k rows, List.length (log_prob k rows) = List.length rows.
(** Numbers in [0, 1). *)
Definition uniforms_ok (B : nat) (u : list R) : Prop := List.length u = B /\ Forall (fun r => (0 <= r < 1)%R) u.

(** The Metropolis-Hastings log ratio: target [t], forward proposal log density [fwd], backward [bwd]. *)
Definition mh_log_ratio (t_new t_old fwd bwd : R) : R := ((t_new + bwd) - (t_old + fwd))%R.
(** The chance that a uniform number is below [exp r]. *)
Definition acceptance (r : R) : R := Rmin 1 (exp r).
