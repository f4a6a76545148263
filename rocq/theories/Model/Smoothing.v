(** Model of the smoothers: pyfilter/filters/particle/base.py:105-157. *)
From Coq Require Import List Bool Arith String Ascii Reals.
From Verif.Model Require Import Base Xf Tensor Weights Particle.
Import ListNotations.
Local Open Scope nat_scope.

Section Smoothing.
  Context {X : Type}.

  (** base.py:141-144: the loop of [_do_sample_fl] over the remaining states, newest first; the values appended. *)
  Fixpoint fl_loop (latest : corr X) (rest : list (corr X)) (prev_inds : mat nat) : res (list (mat X)) :=
    match rest with
    | [] => Ok []
    | s :: rest =>
        let! inds := batched_gather (c_inds latest) prev_inds in
        let! vals := batched_gather (ts_val (c_x s)) inds in
        let! more := fl_loop s rest inds in
        Ok (vals :: more)
    end.

  (** base.py:130-146 _do_sample_fl for [n] particles and [b] parallel filters; [next] of an exhausted iterator
      raises StopIteration, represented by RuntimeError.  Stacked along time, oldest first. *)
  Definition do_sample_fl (n b : nat) (states : list (corr X)) : res (list (mat X)) :=
    match rev states with
    | [] => Raise RuntimeError
    | latest :: rest =>
        let! l := fl_loop latest rest (arange n b) in
        Ok (rev (ts_val (c_x latest) :: l))
    end.

  (** [resample r w]: the filter's resampling function on log weights.  [trans t j x x']: log density of moving from
      particle [x] of filter [j] at time [t] to [x'] (stochproc's [hidden.build_density(...).log_prob]).
      [categorical r n b logits]: a sample of pyro's Categorical, one index for each of [n] x [b] vectors of logits. *)
  Variable resample : nat -> mat xf -> res (mat nat).
  Variable trans : nat -> nat -> X -> X -> xf.
  Variable categorical : nat -> nat -> nat -> (nat -> nat -> list xf) -> res (mat nat).

  (** base.py:110-126: the backward loop of [_do_sample_ffbs]; [last]: the values sampled for the next time. *)
  Fixpoint ffbs_loop (r n b : nat) (rest : list (corr X)) (last : mat X) : res (list (mat X)) :=
    match rest with
    | [] => Ok []
    | s :: rest =>
        let logits i j :=
          map (fun k => xadd (m_get (c_w s) k j)
                          (trans (ts_time (c_x s)) j (m_get (ts_val (c_x s)) k j) (m_get last i j)))
              (seq 0 (m_rows (c_w s))) in
        let! indices := categorical r n b logits in
        let! vals := batched_gather (ts_val (c_x s)) indices in
        let! more := ffbs_loop (S r) n b rest vals in
        Ok (vals :: more)
    end.

  (** base.py:105-128 _do_sample_ffbs. *)
  Definition do_sample_ffbs (r n b : nat) (states : list (corr X)) : res (list (mat X)) :=
    match rev states with
    | [] => Raise IndexError
    | latest :: rest =>
        let! inds := resample r (c_w latest) in
        let! vals := batched_gather (ts_val (c_x latest)) inds in
        let! l := ffbs_loop (S r) n b rest vals in
        Ok (rev (vals :: l))
    end.

  (** [str.lower] on ASCII strings. *)
  Definition lower_char (c : ascii) : ascii :=
    let n := nat_of_ascii c in
    if ((65 <=? n) && (n <=? 90))%bool then ascii_of_nat (n + 32) else c.
  Fixpoint lower (s : string) : string :=
    match s with EmptyString => EmptyString | String c r => String (lower_char c) (lower r) end.

  (** base.py:149-157 smooth. *)
  Definition smooth (r n b : nat) (states : list (corr X)) (method : string) : res (list (mat X)) :=
    if String.eqb (lower method) "ffbs" then do_sample_ffbs r n b states
    else if String.eqb method "fl" then do_sample_fl n b states
    else Raise NotImplementedError.
End Smoothing.
