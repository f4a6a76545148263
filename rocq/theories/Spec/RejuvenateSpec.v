(** What it means that rejuvenating parameter particles leaves their distribution in place. *)
From Coq Require Import Reals List Arith.
From Verif.Model Require Import Base Xf Pmmh Sequential.
From Verif.Spec Require Import WeightsSpec ResamplingSpec SequentialSpec UnbiasedSpec StationarySpec.
Import ListNotations.
Local Open Scope nat_scope.

Section Rejuvenate.
  Context {T F Y K U D : Type}.
  (** The draws: [u] of the resampling; for move [i], [fst (w i)] of the candidates and their filters, and [snd (w i)], the uniform numbers.
      [cand d b], [filt d b t]: candidate of slot [b]; result of the filter of slot [b] with the parameters [t]. *)
  Variable E : U -> @stream D (list R) -> env T F Y K.
  Variable LU : law U.
  Variable L : law D.
  Variable pick : U -> list xf -> list nat.
  Variable cand : D -> nat -> T.
  Variable filt : D -> nat -> T -> F * xf.
  Variables (B np r0 : nat) (data : list Y).
  (** The prior; the density of the candidates.  The proposal is one whose kernels have this density whatever population they are built from. *)
  Variable log_prior : T -> xf.
  Variable log_density : T -> R.

  (** The program makes these draws at the positions of its random numbers where it asks for them. *)
  Record uses_draws : Prop := {
    ud_size : forall u w, e_B (E u w) = B;
    ud_prior : forall u w t, e_log_prior (E u w) t = log_prior t;
    ud_density : forall u w k rows, e_log_prob (E u w) k rows = map (fun t => Fin (log_density t)) rows;
    ud_pick : forall u w p, e_resample (E u w) r0 p = pick u p;
    ud_candidates : forall u w i k, e_sample (E u w) (r0 + 2 + i * (3 + List.length data)) k = map (cand (fst (w i))) (seq 0 B);
    ud_filters : forall u w i b t, alone (E u w) (r0 + 2 + i * (3 + List.length data) + 1) np b t data = filt (fst (w i)) b t;
    ud_uniforms : forall u w i, e_uniforms (E u w) (r0 + 2 + i * (3 + List.length data) + 2 + List.length data) = snd (w i)
  }.
  (** Resampling selects [B] particles, on average each as often as its weight says (C85). *)
  Definition fair_pick : Prop :=
    (forall u p, supp LU u -> prob_vec p -> List.length p = B -> List.length (pick u (map Fin p)) = B /\ Forall (fun i => i < B) (pick u (map Fin p))) /\
    forall p i, prob_vec p -> List.length p = B -> i < B -> averages LU (fun u => INR (copies i (pick u (map Fin p)))) (INR B * nth i p 0)%R.
  (** The candidates and filters of all slots have the same law. *)
  Definition same_slots : Prop :=
    forall b (g : T * (F * xf) -> R) m, b < B -> averages L (fun d => g (cand d 0, filt d 0 (cand d 0))) m -> averages L (fun d => g (cand d b, filt d b (cand d b))) m.
  Definition proposed (b : nat) (d : D) (z : T * (F * xf)) : T * (F * xf) := (cand d b, filt d b (cand d b)).
  (** Prior times estimated likelihood, relative to the candidates. *)
  Definition target (z : T * (F * xf)) : R := posterior (fun t => xsub (log_prior t) (Fin (log_density t))) snd z.
End Rejuvenate.

(** The function [h] of parameters and filter, at particle [b]; its mean over the particles. *)
Definition particle_value {T F} (h : T * F -> R) (ctx : list T) (fs : list F) (b : nat) : R :=
  match nth_error ctx b, nth_error fs b with Some t, Some f => h (t, f) | _, _ => 0%R end.
Definition particle_mean {T F} (B : nat) (h : T * F -> R) (ctx : list T) (fs : list F) : R :=
  (/ INR B * Rsum (map (particle_value h ctx fs) (seq 0 B)))%R.
(** ... under weights. *)
Definition weighted_mean {T F} (B : nat) (p : list R) (h : T * F -> R) (ctx : list T) (fs : list F) : R :=
  Rsum (map (fun b => nth b p 0 * particle_value h ctx fs b)%R (seq 0 B)).
(** The mean of [h] over the particles once they have been rejuvenated (zero if that raises). *)
Definition rejuvenated {T F Y K} (E : env T F Y K) (c : smc2_cfg) (n : nat) (g : world) (s : sstate) (B : nat) (h : T * (F * xf) -> R) : R :=
  match pmmh_update E c n g s with (_, g', Ok r) => particle_mean B h (g_ctx g') (s_fs (result_of r)) | _ => 0%R end.
(** The particles are properly weighted for the target: weighted sums over them are right on average. *)
Definition weights_sum {T F} (B : nat) (ws : list R) (h : T * F -> R) (ctx : list T) (fs : list F) : R :=
  (/ INR B * Rsum (map (fun b => exp (nth b ws 0) * particle_value h ctx fs b)%R (seq 0 B)))%R.
Definition mean_weight (B : nat) (ws : list R) : R := (/ INR B * Rsum (map exp ws))%R.
