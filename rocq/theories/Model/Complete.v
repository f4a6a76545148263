(** Model of the log densities of smoothed trajectories that pyro and the gradient proposal work with:
    pyfilter/filters/particle/base.py:176-230 and pyfilter/inference/batch/mcmc/proposals/gradient.py:9-32, 65-83.

    Stacked tensors over time are lists; the numbers over trajectories of one row are functions of the trajectory.  One
    parallel filter (chain) [j] at a time: the densities and sums treat the last dimension elementwise.  That a time index
    of shape [L] must broadcast with values of shape [L x n] inside a model's own functions is not modelled. *)
From Coq Require Import List Bool Arith String Reals.
From Verif.Model Require Import Base Xf Tensor Particle Smoothing.
Import ListNotations.
Local Open Scope nat_scope.

(** Broadcasting of two stacks along the first dimension: equal lengths, or one of them of length one. *)
Definition broadcast {A B} (a : list A) (b : list B) : res (list (A * B)) :=
  if List.length a =? List.length b then Ok (combine a b)
  else match a, b with
       | [x], _ => Ok (map (pair x) b)
       | _, [y] => Ok (map (fun x => (x, y)) a)
       | _, _ => Raise RuntimeError
       end.
(** Python's [l[::step]] for a positive step. *)
Definition stride {A} (step : nat) (l : list A) : list A :=
  map snd (filter (fun p => fst p mod step =? 0) (combine (seq 0 (List.length l)) l)).

Section Complete.
  Context {X Y : Type}.
  (** Log densities of stochproc: the initial distribution, the hidden process moving from a value at a time, the
      observation given the value at a time. *)
  Variable initial_logp : X -> xf.
  Variable hidden_logp : nat -> X -> X -> xf.
  Variable obs_logp : nat -> X -> Y -> xf.
  (** The number of trajectories, and the parallel filter. *)
  Variables n j : nat.

  (** base.py:190, 198, 206 and gradient.py:19, 23, 31: [propagate_from(values=x[:-1], time_increment=time[:-1])] adds the
      increment to the time of the state it is called on, [first]; the log density of [x[1:]]. *)
  Definition hidden_rows (first : nat) (times : list nat) (x : list (mat X)) : list (nat -> xf) :=
    map (fun p => let '((t, a), c) := p in fun i => hidden_logp (first + t) (m_get a i j) (m_get c i j))
        (combine (combine (removelast times) (removelast x)) (tl x)).
  (** base.py:191-194, 199, 202-207 and gradient.py:20, 24-26, 31: the log density of the observations, reshaped to one row
      per time, given the states [x] at [times]. *)
  Definition obs_rows (first : nat) (times : list nat) (x : list (mat X)) (y : list Y) : res (list (nat -> xf)) :=
    let! p := broadcast (combine times x) y in
    Ok (map (fun p => let '((t, a), y) := p in fun i => obs_logp (first + t) (m_get a i j) y) p).
  (** [.sum(0)] and [.mean(0)]. *)
  Definition sum_rows (rows : list (nat -> xf)) (i : nat) : xf := xsum (map (fun r => r i) rows).
  Definition mean_over (f : nat -> xf) : xf := xdiv (xsum (map f (seq 0 n))) (Fin (INR n)).

  (** base.py:184-210: the factor for smoothed values; the state it propagates from is a fresh initial sample (time 0). *)
  Definition pyro_factor (every : nat) (times : list nat) (smoothed : list (mat X)) (y : list Y) : res xf :=
    match smoothed with
    | [] => Raise IndexError
    | x0 :: _ =>
        let! obs := obs_rows 0 (stride every (tl times)) (stride every (tl smoothed)) y in
        Ok (mean_over (fun i => xadd (xadd (sum_rows (hidden_rows 0 times smoothed) i) (sum_rows obs i)) (initial_logp (m_get x0 i j))))
    end.

  (** gradient.py:9-32 _model_likelihood; [prior]: context.eval_priors(constrained=False). *)
  Definition model_likelihood (first : nat) (prior : xf) (times : list nat) (x : list (mat X)) (y : list Y) : res xf :=
    match x with
    | [] => Raise IndexError
    | x0 :: _ =>
        let! obs := obs_rows first (tl times) (tl x) y in
        let! both := broadcast (hidden_rows first times x) obs in
        Ok (xadd (xadd (mean_over (fun i => initial_logp (m_get x0 i j))) prior)
              (mean_over (sum_rows (map (fun p i => xadd (fst p i) (snd p i)) both))))
    end.

  (** The smoother (Model/Smoothing.v) with its random draws. *)
  Variable resample : nat -> mat xf -> res (mat nat).
  Variable trans : nat -> nat -> X -> X -> xf.
  Variable categorical : nat -> nat -> nat -> (nat -> nat -> list xf) -> res (mat nat).

  (** base.py:176-210 _do_pyro_ffbs: [record_states]: whether it is True; [states]: those of the result of filtering [y]. *)
  Definition do_pyro_ffbs (r b : nat) (record_states : bool) (every : nat) (states : list (corr X)) (y : list Y) : res xf :=
    if record_states then
      let! smoothed := smooth resample trans categorical r n b states "ffbs" in
      pyro_factor every (map (fun s => ts_time (c_x s)) states) smoothed y
    else Raise AssertionError.
  (** base.py:212-229 do_sample_pyro. *)
  Definition do_sample_pyro (r b : nat) (record_states : bool) (every : nat) (states : list (corr X)) (y : list Y) (method : string) : res xf :=
    if String.eqb (lower method) "ffbs" then do_pyro_ffbs r b record_states every states y else Raise NotImplementedError.

  (** gradient.py:65-82: the function whose gradient the proposal takes; [states]: those the filter has recorded. *)
  Definition gradient_target (r b : nat) (prior : xf) (states : list (corr X)) (y : list Y) : res xf :=
    let! smoothed := smooth resample trans categorical r n b states "ffbs" in
    match states with
    | [] => Raise IndexError
    | s :: _ => model_likelihood (ts_time (c_x s)) prior (map (fun s => ts_time (c_x s)) states) smoothed y
    end.
End Complete.
