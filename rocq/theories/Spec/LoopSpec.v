(** Specification vocabulary for the filtering loop. *)
From Coq Require Import List Bool Arith String Ascii Reals.
From Verif.Model Require Import Base Xf Tensor Weights Particle FilterLoop.
From Verif.Spec Require Import ParticleSpec.
Import ListNotations.
Local Open Scope nat_scope.

Section LoopSpec.
  Context {X : Type}.
  Variable lowest : R.
  Variable o : @oracle X (list xf).
  Variable k : kind.

  (** [c] follows [s] by moving the particles with the model only. *)
  Definition moves (s c : corr X) : Prop :=
    exists r r' p, predict lowest o k r s = Ok p /\ create_state lowest o r' p = Ok c.

  (** [c] follows [s] by using observation [y]. *)
  Definition corrects (y : list xf) (s c : corr X) : Prop :=
    exists r r' p, predict lowest o k r s = Ok p /\ correct lowest o k r' y p = Ok c.

  (** From [s] to [s'] over the states [l] without observation, at times that are not multiples of [every]. *)
  Inductive travels (every : nat) : corr X -> list (corr X) -> corr X -> Prop :=
  | arrived s : ts_time (c_x s) mod every = 0 -> travels every s [] s
  | travelling s c l s' : ts_time (c_x s) mod every <> 0 -> moves s c -> travels every c l s' -> travels every s (c :: l) s'.

  (** Every move of the particles advances the clock by one. *)
  Definition clock : Prop :=
    (forall r x, ts_time (propagate o r x) = S (ts_time x)) /\
    (forall r y x w nw, ts_time (fst (sample_and_weight o r y x w nw)) = S (ts_time x)).

  (** The external functions behave for [n] particles. *)
  Definition well_behaved (n : nat) : Prop :=
    (forall r flag, resampler_ok o n r flag) /\ (forall r, propagate_shape o r) /\
    (forall r, proposal_shape o r) /\ preweight_shape o.
End LoopSpec.

(** Two spellings of a word: characters agree up to the case of letters. *)
Definition same_letter (c c' : ascii) : Prop :=
  c = c' \/
  (65 <= nat_of_ascii c' <= 90 /\ nat_of_ascii c = nat_of_ascii c' + 32) \/
  (65 <= nat_of_ascii c <= 90 /\ nat_of_ascii c' = nat_of_ascii c + 32).
Fixpoint spelling_of (w s : string) : Prop :=
  match w, s with
  | EmptyString, EmptyString => True
  | String c w, String c' s => same_letter c c' /\ spelling_of w s
  | _, _ => False
  end.
