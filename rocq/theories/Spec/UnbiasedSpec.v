(** Specification vocabulary for statements about averages: laws of random draws, averages over a stream of draws, and
    the likelihood of a hidden process. *)
From Coq Require Import Reals List Arith.
From Coquelicot Require Import Coquelicot.
Import ListNotations.
Local Open Scope nat_scope.

(** * Laws *)

(** The law of a random draw: the values it may take, the functions whose average exists, the average. *)
Record law (A : Type) : Type := Law { supp : A -> Prop; dom : (A -> R) -> Prop; mean : (A -> R) -> R }.
Arguments Law {A}. Arguments supp {A}. Arguments dom {A}. Arguments mean {A}.
(** Averages only look at possible values, are linear, and leave constants alone. *)
Record law_ok {A} (L : law A) : Prop := {
  law_ext : forall f g, (forall a, supp L a -> f a = g a) -> dom L f -> dom L g /\ mean L g = mean L f;
  law_const : forall c, dom L (fun _ => c) /\ mean L (fun _ => c) = c;
  law_lin : forall a b f g, dom L f -> dom L g ->
    dom L (fun x => a * f x + b * g x)%R /\ mean L (fun x => a * f x + b * g x)%R = (a * mean L f + b * mean L g)%R
}.
(** The average of [f] exists and is [m]. *)
Definition averages {A} (L : law A) (f : A -> R) (m : R) : Prop := dom L f /\ mean L f = m.

(** The uniform law on the unit interval, by the Riemann integral. *)
Definition uniform : law R :=
  Law (fun u => (0 < u < 1)%R) (fun f => @ex_RInt R_NormedModule f 0%R 1%R) (fun f => @RInt R_CompleteNormedModule f 0%R 1%R).
(** A law with finitely many values and their probabilities. *)
Definition finite {A} (l : list (A * R)) : law A :=
  Law (fun a => exists p, In (a, p) l) (fun _ => True) (fun f => fold_right Rplus 0%R (map (fun q => (snd q * f (fst q))%R) l)).
(** The law of a function of a draw. *)
Definition image {A B} (h : A -> B) (L : law A) : law B :=
  Law (fun y => exists a, supp L a /\ h a = y) (fun f => dom L (fun a => f (h a))) (fun f => mean L (fun a => f (h a))).
(** Independent draws at the positions below [b]; the others are those of [base]. *)
Definition set_at {A} (u : nat -> A) (k : nat) (a : A) : nat -> A := fun i => if i =? k then a else u i.
Fixpoint independent {A} (L : law A) (b : nat) (base : nat -> A) : law (nat -> A) :=
  match b with
  | O => Law (fun u => forall k, supp L (u k)) (fun _ => True) (fun f => f base)
  | S b => let I := independent L b base in
      Law (fun u => forall k, supp L (u k))
          (fun f => dom I (fun u => mean L (fun a => f (set_at u b a))) /\ forall u, supp I u -> dom L (fun a => f (set_at u b a)))
          (fun f => mean I (fun u => mean L (fun a => f (set_at u b a))))
  end.

(** * Streams of independent draws *)
Section Stream.
  Context {U D : Type}.
  Variable LU : law U.
  Variable LD : law D.
  Definition stream : Type := nat -> U * D.
  Definition put (w : stream) (r : nat) (a : U * D) : stream := fun i => if i =? r then a else w i.

  (** The average of [f] over [k] positions of the stream from [r] on, the others as in [w]. *)
  Fixpoint average (k r : nat) (f : stream -> R) (w : stream) : R :=
    match k with
    | O => f w
    | S k => mean LU (fun u => mean LD (fun d => average k (S r) f (put w r (u, d))))
    end.
  (** ... and that all the averages in it exist. *)
  Fixpoint exists_average (k r : nat) (f : stream -> R) (w : stream) : Prop :=
    match k with
    | O => True
    | S k => dom LU (fun u => mean LD (fun d => average k (S r) f (put w r (u, d)))) /\
             forall u, supp LU u -> dom LD (fun d => average k (S r) f (put w r (u, d))) /\
                       forall d, supp LD d -> exists_average k (S r) f (put w r (u, d))
    end.
  Definition averages_over (k r : nat) (f : stream -> R) (w : stream) (m : R) : Prop :=
    exists_average k r f w /\ average k r f w = m.
End Stream.

(** * The likelihood of a series of observations *)
Section Likelihood.
  Context {X Y : Type}.
  (** [move t y f x]: the average of [f] over the values of the process at time [t + 1], given that it is at [x] at time
      [t]; weighted by the likelihood of [y] there if [y] is an observation.  [movable t y f]: it exists. *)
  Variable move : nat -> option Y -> (X -> R) -> X -> R.
  Variable movable : nat -> option Y -> (X -> R) -> Prop.
  (** The process is observed after moving from a time that is a multiple of [every]. *)
  Variable every : nat.
  Definition until (t : nat) : nat := (every - t mod every) mod every.

  Fixpoint hops (m t : nat) (f : X -> R) : X -> R :=
    match m with O => f | S m => move t None (hops m (S t) f) end.
  (** The likelihood of the observations [ys] ([None]: missing) for a process at [x] at time [t]. *)
  Fixpoint likelihood (t : nat) (ys : list (option Y)) : X -> R :=
    match ys with
    | [] => fun _ => 1%R
    | y :: ys => hops (until t) t (move (t + until t) y (likelihood (S (t + until t)) ys))
    end.

  Fixpoint hoppable (m t : nat) (f : X -> R) : Prop :=
    match m with O => True | S m => movable t None (hops m (S t) f) /\ hoppable m (S t) f end.
  Fixpoint has_likelihood (t : nat) (ys : list (option Y)) : Prop :=
    match ys with
    | [] => True
    | y :: ys => let t' := t + until t in let f := likelihood (S t') ys in
        hoppable (until t) t (move t' y f) /\ movable t' y f /\ has_likelihood (S t') ys
    end.
  (** Draws used up: two for every move. *)
  Fixpoint draws (t : nat) (ys : list (option Y)) : nat :=
    match ys with [] => 0 | _ :: ys => 2 * until t + 2 + draws (S (t + until t)) ys end.
End Likelihood.
