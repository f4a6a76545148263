(** What it means that the weights of parameter particles are right on average. *)
From Coq Require Import Reals List Arith.
From Verif.Model Require Import Xf Sequential.
From Verif.Spec Require Import ParticleSpec UnbiasedSpec StationarySpec.
Import ListNotations.
Local Open Scope nat_scope.

(** Draw the parameters, then everything else. *)
Definition and_then {A D} (LA : law A) (L : law D) : law (A * D) :=
  Law (fun q => supp LA (fst q) /\ supp L (snd q))
      (fun f => (forall a, supp LA a -> dom L (fun d => f (a, d))) /\ dom LA (fun a => mean L (fun d => f (a, d))))
      (fun f => mean LA (fun a => mean L (fun d => f (a, d)))).
(** The weight, not its logarithm, of particle [b]; a function of the parameters of particle [b]. *)
Definition weight_at (w : list xf) (b : nat) : R := match nth_error w b with Some x => mass x | None => 0%R end.
Definition at_slot {T} (rows : list T) (b : nat) (h : T -> R) : R := match nth_error rows b with Some t => h t | None => 0%R end.
(** The log likelihoods of observations are numbers. *)
Definition tame {T F Y K} (E : env T F Y K) : Prop := forall r np b t t' y f, is_fin (snd (e_step E r np b t t' y f)).
(** Settings with which [B] particles are not rejuvenated within [n] observations. *)
Definition calm (b : base) (B n : nat) : Prop :=
  match b with
  | NESS thr _ => (thr * INR B <= 1)%R
  | FixedWidthNESS bl _ => n < bl
  | SMC2 c => forall i, (c_threshold c i * INR B <= 1)%R
  end.
