(** True genealogies: the same filter run on particles that carry the values of all their ancestors.  Whatever particle
    the filter copies, its whole past travels with it. *)
From Coq Require Import Reals List Bool Arith.
From Verif.Model Require Import Base Xf Tensor Weights Particle.
From Verif.Spec Require Import ParticleSpec.
Import ListNotations.
Local Open Scope nat_scope.

Section Paths.
  Context {V Y : Type}.
  Variable d : V.

  (** The present value of a particle with a past (the past is listed oldest first). *)
  Definition now (past : list V) : V := last past d.

  (** Forget the past. *)
  Definition now_ts (x : tstate (list V)) : tstate V := TS (ts_time x) (map_mat now (ts_val x)).
  Definition now_state (s : corr (list V)) : corr V := Corr (now_ts (c_x s)) (c_w s) (c_ll s) (c_inds s).
  Definition now_pred (p : pred (list V)) : pred V := Pred (now_ts (p_x p)) (p_w p) (p_nw p) (p_inds p).

  (** Remember a move: every particle keeps its past and appends the new value. *)
  Definition remember (x : tstate (list V)) (x' : tstate V) : tstate (list V) :=
    TS (ts_time x') (zip_mat (fun past v => past ++ [v]) (ts_val x) (ts_val x')).

  (** The model and proposal of a filter, acting on particles with a past. *)
  Definition with_past (o : @oracle V Y) : @oracle (list V) Y := {|
    resampler := resampler o;
    propagate := fun r x => remember x (propagate o r (now_ts x));
    sample_and_weight := fun r y x w nw =>
      let out := sample_and_weight o r y (now_ts x) w nw in (remember x (fst out), snd out);
    pre_weight := fun y x => pre_weight o y (now_ts x)
  |}.

  (** A state whose particles have only a present. *)
  Definition newborn (s : corr V) : corr (list V) :=
    Corr (TS (ts_time (c_x s)) (map_mat (fun v => [v]) (ts_val (c_x s)))) (c_w s) (c_ll s) (c_inds s).

  (** [out] (time, then particle, then filter) lists for every particle of [final] its own past. *)
  Definition lists_pasts (n b : nat) (out : list (mat V)) (final : corr (list V)) : Prop :=
    forall i j, i < n -> j < b ->
      map (fun m => m_get m i j) out = m_get (ts_val (c_x final)) i j.
End Paths.
