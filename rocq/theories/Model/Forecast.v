(** Model of [predict_path]: simulating the hidden process onwards from the particles of a state. *)
From Coq Require Import List Reals.
From Verif.Model Require Import Base Xf Tensor Weights Particle.
Import ListNotations.

Section Forecast.
  Context {X Y : Type}.
  (** stochproc's [StateSpaceModel.sample_states(num_steps, x_0=x)], external: [num_steps] times [hidden.propagate] from [x];
      the propagated states in order ([x] itself is not among them, tests/filters/test_particle.py:129-135).  Simplified: only
      the hidden states; the simulated observations that come with them are left out. *)
  Fixpoint sample_states (o : @oracle X Y) (r num_steps : nat) (x : tstate X) : list (tstate X) :=
    match num_steps with
    | O => []
    | S m => let x' := propagate o r x in x' :: sample_states o (S r) m x'
    end.
  (** filters/particle/state.py:173-174 ParticleFilterCorrection.predict_path.  [r]: the position of the random stream. *)
  Definition predict_path (o : @oracle X Y) (r num_steps : nat) (c : corr X) : list (tstate X) := sample_states o r num_steps (c_x c).
End Forecast.
