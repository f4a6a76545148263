(** Specification vocabulary for the law of backward sampling: what is asked of the draws, the backward chances, and the
    posterior of the path of a hidden process with finitely many values. *)
From Coq Require Import Reals List Bool Arith.
From Verif.Model Require Import Base Xf Tensor Weights Particle Smoothing.
From Verif.Spec Require Import WeightsSpec ResamplingSpec ParticleSpec UnbiasedSpec ConvergeSpec.
Import ListNotations.
Local Open Scope nat_scope.

(** * The draws *)
(** A density as a log density: that of an impossible move is -inf. *)
Definition log_of (d : R) : xf := if Rlt_dec 0 d then Fin (ln d) else NInf.

Section Draws.
  Context {U D : Type}.
  (** The final resampling and the draws of Categorical, given their noise. *)
  Variable pick : U -> mat xf -> res (mat nat).
  Variable cat : D -> nat -> nat -> (nat -> nat -> list xf) -> res (mat nat).
  Variable LU : law U.
  Variable LD : law D.

  (** The resampling function returns valid indices and selects particle [i] of [n] on average [n] times its weight. *)
  Definition fair_pick (lowest : R) (n b j : nat) : Prop :=
    (forall u m, supp LU u -> shaped m n b -> exists s, pick u m = Ok s /\ valid_selection n b s) /\
    (forall m i, shaped m n b -> entries is_fin m -> i < n ->
       averages LU (fun u => match pick u m with Ok s => INR (copies i (col s j)) | Raise _ => 0%R end)
         (INR n * nth i (imp lowest (col m j)) 0)%R).

  (** Logits none of which is NaN or +inf, not all -inf. *)
  Definition proper_logits (l : list xf) : Prop := Forall finite_or_ninf l /\ Exists is_fin l.
  (** Categorical returns valid indices; entry [(i, j)] is [k] with the probability proportional to exp of logit [k]. *)
  Definition fair_categorical (n b : nat) : Prop :=
    forall logits, (forall i j, i < n -> j < b -> length (logits i j) = n /\ proper_logits (logits i j)) ->
      (forall d, supp LD d -> exists s, cat d n b logits = Ok s /\ valid_selection n b s) /\
      (forall i j k, i < n -> j < b -> k < n ->
         averages LD (fun d => match cat d n b logits with Ok s => if Nat.eq_dec (m_get s i j) k then 1%R else 0%R | Raise _ => 0%R end)
           (lik (nth k (logits i j) NaN) / Rsum (map lik (logits i j)))%R).
End Draws.

(** * Backward chances *)
Section Back.
  Context {X : Type}.
  Variable lowest : R.
  Variables n j : nat.
  (** Density of moving from a value at a time to a value at the next. *)
  Variable dens : nat -> X -> X -> R.

  Definition weight (s : corr X) (k : nat) : R := nth k (imp lowest (col (c_w s) j)) 0%R.
  Definition place (s : corr X) (k : nat) : X := m_get (ts_val (c_x s)) k j.
  (** Chance of particle [k] of [s] to have moved to [x]. *)
  Definition ancestry (s : corr X) (x : X) (k : nat) : R := (weight s k * dens (ts_time (c_x s)) (place s k) x)%R.
  (** The average of [F] over the trajectories that end in the values [x :: later]; [rest]: the earlier states, newest first. *)
  Fixpoint back (rest : list (corr X)) (x : X) (later : list X) (F : list X -> R) : R :=
    match rest with
    | [] => F (x :: later)
    | s :: rest => sum_below n (fun k => ancestry s x k / sum_below n (ancestry s x) * back rest (place s k) (x :: later) F)%R
    end.
  (** The average of [F] over trajectories drawn backwards through the [states]. *)
  Definition backward_average (states : list (corr X)) (F : list X -> R) : R :=
    match rev states with
    | [] => 0%R
    | latest :: rest => sum_below n (fun k => weight latest k * back rest (place latest k) [] F)%R
    end.
  (** Every particle of a state can come from one of the preceding state. *)
  Fixpoint linked (states : list (corr X)) : Prop :=
    match states with
    | s :: ((s' :: _) as l) => (forall k, k < n -> exists k', k' < n /\ (0 < dens (ts_time (c_x s)) (place s k') (place s' k))%R) /\ linked l
    | _ => True
    end.
  (** The mean of [F] over the [n] trajectories returned for filter [j]. *)
  Definition trajectory_mean (F : list X -> R) (out : res (list (mat X))) : R :=
    match out with
    | Ok out => (/ INR n * sum_below n (fun i => F (map (fun m => m_get m i j) out)))%R
    | Raise _ => 0%R
    end.
End Back.

(** * The posterior of a path *)
Section Posterior.
  Context {X : Type}.
  (** The values of the process, the probabilities of its start, the densities of its moves, and the likelihood of what is
      observed at each time (one if nothing is). *)
  Variable xs : list X.
  Variable start : X -> R.
  Variable dens : nat -> X -> X -> R.
  Variable obs : nat -> X -> R.

  (** The sum, over all paths that continue [past] (newest first, now at [x] at time [t]) for [m] moves, of [F] times the
      probability of the moves and observations. *)
  Fixpoint onward (m t : nat) (past : list X) (x : X) (F : list X -> R) : R :=
    match m with
    | O => F (rev (x :: past))
    | S m => Rsum (map (fun x' => dens t x x' * obs (S t) x' * onward m (S t) (x :: past) x' F)%R xs)
    end.
  Definition over_paths (m : nat) (F : list X -> R) : R :=
    Rsum (map (fun x => start x * obs 0 x * onward m 0 [] x F)%R xs).
  (** The posterior mean of a function of the path over times [0 .. m]. *)
  Definition posterior (m : nat) (F : list X -> R) : R := (over_paths m F / over_paths m (fun _ => 1%R))%R.
  (** The exact filter: the probability of [x] at time [t] given the observations up to [t]. *)
  Definition filtered (eq_dec : forall x y : X, {x = y} + {x <> y}) (t : nat) (x : X) : R :=
    posterior t (fun path => if eq_dec (last path x) x then 1%R else 0%R).
End Posterior.

(** The times of the states a filter records for a model observed every [every] steps, without the intermediary ones: the
    start, and the first time and every [every]-th time after it. *)
Definition recorded_time (every q : nat) : nat := match q with O => 0 | S q => 1 + every * q end.
(** Recorded states whose particles in filter [j] are the values of the process and whose weights are those of the exact
    filter. *)
Definition exact_states {X} (lowest : R) (j every : nat) eq_dec (xs : list X) start dens obs (states : list (corr X)) : Prop :=
  forall q s, nth_error states q = Some s ->
    ts_time (c_x s) = recorded_time every q /\ col (ts_val (c_x s)) j = xs /\
    imp lowest (col (c_w s) j) = map (filtered xs start dens obs eq_dec (recorded_time every q)) xs.
