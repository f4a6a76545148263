(** Specification vocabulary for the error of particle filters: bounds on averages, and what is asked of the random draws
    for the error to vanish as the number of particles grows. *)
From Coq Require Import Reals List Bool Arith.
From Verif.Model Require Import Base Xf Tensor Weights Particle FilterLoop.
From Verif.Spec Require Import WeightsSpec ResamplingSpec ParticleSpec UnbiasedSpec FairSpec.
Import ListNotations.
Local Open Scope nat_scope.

(** * Bounds on averages *)
(** Averages of non-negative quantities are not negative. *)
Definition law_pos {A} (L : law A) : Prop := forall f, dom L f -> (forall a, supp L a -> (0 <= f a)%R) -> (0 <= mean L f)%R.
(** [f] is on average at most [c]: it lies below a quantity whose average exists and is at most [c]. *)
Definition at_most {A} (L : law A) (f : A -> R) (c : R) : Prop :=
  exists g m, (forall a, supp L a -> (f a <= g a)%R) /\ averages L g m /\ (m <= c)%R.
(** ... over [k] positions of a stream of draws from [r] on, the others as in [w]. *)
Fixpoint at_most_over {U D} (LU : law U) (LD : law D) (k r : nat) (f : @stream U D -> R) (w : stream) (c : R) : Prop :=
  match k with
  | O => (f w <= c)%R
  | S k => exists F G, (forall u d, supp LU u -> supp LD d -> at_most_over LU LD k (S r) f (put w r (u, d)) (F u d)) /\
             (forall u, supp LU u -> at_most LD (F u) (G u)) /\ at_most LU G c
  end.
(** ... and over an initial value as well. *)
Definition at_most_from {A U D} (LX : law A) (LU : law U) (LD : law D) (k r : nat) (f : A -> @stream U D -> R) (w : stream) (c : R) : Prop :=
  exists F, (forall x, supp LX x -> at_most_over LU LD k r (f x) w (F x)) /\ at_most LX F c.

(** A stream all of whose draws can occur. *)
Definition possible {U D} (LU : law U) (LD : law D) (w : @stream U D) : Prop := forall i, supp LU (fst (w i)) /\ supp LD (snd (w i)).

Definition square (x : R) : R := (x * x)%R.
(** The first [n] terms. *)
Definition sum_below (n : nat) (f : nat -> R) : R := Rsum (map f (seq 0 n)).

(** * Expectations under the hidden process *)
Section Expected.
  Context {X Y : Type}.
  Variable move : nat -> option Y -> (X -> R) -> X -> R.
  Variable movable : nat -> option Y -> (X -> R) -> Prop.
  Variable every : nat.
  Variable phi : X -> R.
  (** The average, for a process at [x] at time [t], of [phi] at the time of the last observation times the likelihood of
      the observations [ys]; with [phi] one, the likelihood. *)
  Fixpoint expected (t : nat) (ys : list (option Y)) : X -> R :=
    match ys with
    | [] => phi
    | y :: ys => hops move (until every t) t (move (t + until every t) y (expected (S (t + until every t)) ys))
    end.
  Fixpoint has_expected (t : nat) (ys : list (option Y)) : Prop :=
    match ys with
    | [] => True
    | y :: ys => let t' := t + until every t in let f := expected (S t') ys in
        hoppable move movable (until every t) t (move t' y f) /\ movable t' y f /\ has_expected (S t') ys
    end.
  (** The number of moves. *)
  Fixpoint steps (t : nat) (ys : list (option Y)) : nat :=
    match ys with [] => 0 | _ :: ys => until every t + 1 + steps (S (t + until every t)) ys end.
End Expected.

(** * The draws *)
Section Steady.
  Context {X U D : Type}.
  Variable LU : law (nat -> U).
  Variable LD : law (nat -> D).

  (** After resampling [n] particles with weights [W] the mean of a quantity bounded by [B] has a mean square error of at
      most [kappa * B ^ 2 / n]. *)
  Definition steady_resampling (kappa : R) (n b : nat) (fr : bool -> U -> list xf -> list nat) : Prop :=
    forall k W F B, k < b -> prob_vec W -> length W = n -> (forall i, i < n -> (Rabs (F i) <= B)%R) ->
      at_most LU (fun u => square (/ INR n * Rsum (map F (fr true (u k) (map Fin W))) - sum_below n (fun i => nth i W 0 * F i)))%R
        (kappa * square B / INR n)%R.

  (** Filter [j]: the importance weights are at most [G], and the particles move with independent errors, so that the mean square
      error of a weighted sum is at most that of independent terms. *)
  Record steady_moves (good : X -> Prop) (usable : list xf -> Prop) (G : R) (n j : nat) (move : nat -> option (list xf) -> (X -> R) -> X -> R)
    (movable : nat -> option (list xf) -> (X -> R) -> Prop)
    (fp : D -> nat -> list X -> list X) (fx : D -> list xf -> nat -> list X -> list xf -> list xf -> list X)
    (fw : D -> list xf -> nat -> list X -> list xf -> list xf -> list xf) : Prop := {
    steady_weights : forall d y t xs ws nws i, supp LD d -> usable y -> length xs = n -> Forall good xs -> i < n ->
      (exp (real_of (nth i (fw (d j) y t xs ws nws) NaN)) <= G)%R;
    steady_walk : forall t xs f B a dflt, length xs = n -> Forall good xs -> movable t None f -> (forall x, good x -> (Rabs (f x) <= B)%R) ->
      at_most LD (fun d => square (sum_below n (fun i => a i * f (nth i (fp (d j) t xs) dflt)) - sum_below n (fun i => a i * move t None f (nth i xs dflt))))%R
        (sum_below n (fun i => square (a i)) * square B)%R;
    steady_propose : forall y t xs ws nws f B a dflt, usable y -> length xs = n -> Forall good xs -> movable t (Some y) f ->
      (forall x, good x -> (Rabs (f x) <= B)%R) ->
      at_most LD (fun d => square (sum_below n (fun i => a i * (exp (real_of (nth i (fw (d j) y t xs ws nws) NaN)) * f (nth i (fx (d j) y t xs ws nws) dflt))) -
          sum_below n (fun i => a i * move t (Some y) f (nth i xs dflt))))%R
        (sum_below n (fun i => square (a i)) * square (G * B))%R
  }.
End Steady.

(** * What a run reports *)
(** The mean of [phi] over the [n] particles of filter [j] with their normalised weights. *)
Definition filter_mean {X} (lowest : R) (n j : nat) (phi : X -> R) (c : corr X) : R :=
  sum_below n (fun i => nth i (imp lowest (col (c_w c) j)) 0 * phi (m_get (ts_val (c_x c)) i j))%R.
(** ... in the last state of a run. *)
Definition last_mean {X} (lowest : R) (n j : nat) (phi : X -> R) (run : option (res (corr X * nat * list (corr X)))) : R :=
  match run with Some (Ok (c, _, _)) => filter_mean lowest n j phi c | _ => 0%R end.
