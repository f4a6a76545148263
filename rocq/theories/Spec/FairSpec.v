(** What is asked of the random draws of a particle filter for its likelihood estimate to be unbiased. *)
From Coq Require Import Reals List Bool Arith.
From Verif.Model Require Import Base Xf Tensor Weights Particle FilterLoop.
From Verif.Spec Require Import WeightsSpec ResamplingSpec ParticleSpec UnbiasedSpec.
Import ListNotations.
Local Open Scope nat_scope.

(** Position [r] of the stream holds the draws of the resampler and those of the model, each with one component per
    parallel filter. *)
Definition filter_stream (U D : Type) : Type := @stream (nat -> U) (nat -> D).

Section Fair.
  Context {X U D : Type}.
  (** The resampling function, the model's propagation, the proposal and its look-ahead weights, given their draws. *)
  Record chances : Type := Chances {
    resample : (nat -> U) -> bool -> mat xf -> res (mat nat);
    walk : (nat -> D) -> tstate X -> tstate X;
    propose : (nat -> D) -> list xf -> tstate X -> mat xf -> mat xf -> tstate X * mat xf;
    look : list xf -> tstate X -> mat xf
  }.
  Definition at_stream (C : chances) (w : filter_stream U D) : @oracle X (list xf) :=
    Oracle (fun r => resample C (fst (w r))) (fun r => walk C (snd (w r))) (fun r => propose C (snd (w r))) (look C).

  Variable lowest : R.
  Variable LU : law (nat -> U).
  Variable LD : law (nat -> D).
  Variable C : chances.

  Definition columnwise_walk (d : nat -> D) (f : D -> nat -> list X -> list X) : Prop :=
    forall x, ts_time (walk C d x) = S (ts_time x) /\ shaped (ts_val (walk C d x)) (m_rows (ts_val x)) (m_cols (ts_val x)) /\
      forall k, k < m_cols (ts_val x) -> col (ts_val (walk C d x)) k = f (d k) (ts_time x) (col (ts_val x) k).

  (** The functions treat the parallel filters separately, particles remain [good], and the log weights of good
      particles for [usable] observations are numbers. *)
  Record separate (good : X -> Prop) (usable : list xf -> Prop) (fr : bool -> U -> list xf -> list nat) (fp : D -> nat -> list X -> list X)
    (fx : D -> list xf -> nat -> list X -> list xf -> list xf -> list X)
    (fw : D -> list xf -> nat -> list X -> list xf -> list xf -> list xf)
    (fg : nat -> list xf -> nat -> list X -> list xf) : Prop := {
    sep_resample : forall w r flag, supp LU (fst (w r)) -> columnwise_resampler (at_stream C w) r flag (fst (w r)) (fr flag);
    sep_walk : forall d, supp LD d -> columnwise_walk d fp;
    sep_propose : forall w r, supp LD (snd (w r)) -> columnwise_proposal (at_stream C w) r (snd (w r)) S fx fw;
    sep_look : forall y x, shaped (look C y x) (m_rows (ts_val x)) (m_cols (ts_val x)) /\
      forall k, k < m_cols (ts_val x) -> col (look C y x) k = fg k y (ts_time x) (col (ts_val x) k);
    sep_walk_good : forall d k t xs, supp LD d -> Forall good xs -> Forall good (fp (d k) t xs);
    sep_propose_good : forall d k y t xs ws nws, supp LD d -> usable y -> Forall good xs ->
      Forall good (fx (d k) y t xs ws nws) /\ Forall is_fin (fw (d k) y t xs ws nws);
    sep_look_good : forall k y t xs, usable y -> Forall good xs -> Forall is_fin (fg k y t xs)
  }.

  (** On average particle [i] of [n] is selected [n] times its weight, in each of [b] filters. *)
  Definition fair_resampling (n b : nat) (fr : bool -> U -> list xf -> list nat) : Prop :=
    (forall k W i, k < b -> prob_vec W -> length W = n -> i < n ->
       averages LU (fun u => INR (copies i (fr true (u k) (map Fin W)))) (INR n * nth i W 0)%R) /\
    (forall k l i, k < b -> Forall is_fin l -> length l = n -> i < n ->
       averages LU (fun u => INR (copies i (fr false (u k) l))) (INR n * nth i (imp lowest l) 0)%R).

  (** Filter [j]: moving follows the process; proposing and weighing is an importance sample of moving and weighing with
      the likelihood of the observation. *)
  Definition fair_moves (good : X -> Prop) (n j : nat) (move : nat -> option (list xf) -> (X -> R) -> X -> R)
    (movable : nat -> option (list xf) -> (X -> R) -> Prop)
    (fp : D -> nat -> list X -> list X) (fx : D -> list xf -> nat -> list X -> list xf -> list xf -> list X)
    (fw : D -> list xf -> nat -> list X -> list xf -> list xf -> list xf) : Prop :=
    (forall t xs i f dflt, length xs = n -> Forall good xs -> i < n -> movable t None f ->
       averages LD (fun d => f (nth i (fp (d j) t xs) dflt)) (move t None f (nth i xs dflt))) /\
    (forall y t xs ws nws i f dflt, length xs = n -> Forall good xs -> i < n -> movable t (Some y) f ->
       averages LD (fun d => exp (real_of (nth i (fw (d j) y t xs ws nws) NaN)) * f (nth i (fx (d j) y t xs ws nws) dflt))%R
         (move t (Some y) f (nth i xs dflt))).
End Fair.

(** The likelihood estimate of filter [j] after a run that appended the states [l]: exp of the sum of their
    log-likelihoods. *)
Definition estimate {X} (j : nat) (run : option (res (corr X * nat * list (corr X)))) : R :=
  match run with Some (Ok (_, _, l)) => exp (Rsum (map (fun c => real_of (c_ll c j)) l)) | _ => 0%R end.
(** An observation all of whose components are NaN is missing. *)
Definition seen (y : list xf) : option (list xf) := if forallb (fun v => match v with NaN => true | _ => false end) y then None else Some y.
