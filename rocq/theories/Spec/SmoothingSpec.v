(** Specification vocabulary for backward sampling. *)
From Coq Require Import List Bool Arith String Reals.
From Verif.Model Require Import Base Xf Tensor Weights Particle.
From Verif.Spec Require Import ParticleSpec.
Import ListNotations.
Local Open Scope nat_scope.

Section SmoothingSpec.
  Context {X : Type}.

  (** [vals]: for every trajectory and filter the value of one of the particles of [s] in that filter, given by
      [idx]. *)
  Definition takes (n b : nat) (s : corr X) (idx : mat nat) (vals : mat X) : Prop :=
    valid_selection n b idx /\ shaped vals n b /\
    forall i j, i < n -> j < b -> m_get vals i j = m_get (ts_val (c_x s)) (m_get idx i j) j.

  (** Backward simulation: [l] and [out] oldest first; the last values are [vals], the values of each earlier state are
      chosen with indices drawn from the logits [w_k + log p(next value | x_k)]. *)
  Inductive backward (trans : nat -> nat -> X -> X -> xf)
    (categorical : nat -> nat -> nat -> (nat -> nat -> list xf) -> res (mat nat)) (n b : nat)
    : list (corr X) -> list (mat X) -> Prop :=
  | back_last s idx vals : takes n b s idx vals -> backward trans categorical n b [s] [vals]
  | back_step r s idx vals next l out logits :
      takes n b s idx vals ->
      (forall i j, i < n -> j < b -> List.length (logits i j) = n) ->
      (forall i j k, i < n -> j < b -> k < n ->
         nth k (logits i j) NaN =
         xadd (m_get (c_w s) k j) (trans (ts_time (c_x s)) j (m_get (ts_val (c_x s)) k j) (m_get next i j))) ->
      categorical r n b logits = Ok idx ->
      backward trans categorical n b l (next :: out) ->
      backward trans categorical n b (s :: l) (vals :: next :: out).

  (** Contracts: the resampler and torch's Categorical return valid indices. *)
  Definition smoother_resampler_ok (resample : nat -> mat xf -> res (mat nat)) (n : nat) : Prop :=
    forall r m, m_rows m = n -> exists i, resample r m = Ok i /\ valid_selection n (m_cols m) i.
  Definition categorical_ok (categorical : nat -> nat -> nat -> (nat -> nat -> list xf) -> res (mat nat)) (n b : nat) : Prop :=
    forall r logits, (forall i j, i < n -> j < b -> List.length (logits i j) = n) ->
      exists i, categorical r n b logits = Ok i /\ valid_selection n b i.
End SmoothingSpec.
