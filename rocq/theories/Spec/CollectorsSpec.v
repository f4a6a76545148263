(** What the collectors of a sequential algorithm should record. *)
From Coq Require Import Reals String List.
From Verif.Model Require Import Base Xf Weights Container Pmmh Sequential Collectors.
Import ListNotations.
Local Open Scope nat_scope.

(** The average of the numbers [x] under log weights [w]: sum of exp w * x over sum of exp w. *)
Definition sum (l : list R) : R := fold_right Rplus 0%R l.
Definition posterior_average (w x : list R) : R := (sum (map (fun p => exp (fst p) * snd p) (combine w x)) / sum (map exp w))%R.

(** The values stored under a name (none if there is no such name). *)
Definition recording (recs : container (list xf)) (name : string) : list (list xf) :=
  match getitem recs name with Ok l => l | Raise _ => [] end.

(** The algorithm and its state after the first [i] observations, without any collector's help. *)
Definition after {T F Y K} (E : env T F Y K) (c : cfg) (cbs : list callback) (a : alg) (s : sstate) (ys : list Y) (i : nat) (a' : alg) (s' : sstate) : Prop :=
  exists calls, run E c cbs a (firstn i ys) s = (a', Ok (s', calls)).

(** The callbacks the collectors are (numbered by position). *)
Fixpoint as_callbacks {T F Y} (n : nat) (ks : list (collector T F Y)) : list callback :=
  match ks with [] => [] | k :: r => Callback n (k_reads k) :: as_callbacks (S n) r end.

(** Component [j] of the numbers each slot has. *)
Definition component {A} (j : nat) (f : A -> list xf) (l : list A) : list xf := map (fun x => nth j (f x) NaN) l.

(** Recorded next to one another: an entry for every observation, each satisfying its specification. *)
Definition recorded_each (recs recs' : container (list xf)) (name : string) (n : nat) (entry : nat -> list xf -> Prop) : Prop :=
  exists vs, recording recs' name = (recording recs name ++ vs)%list /\ List.length vs = n /\ forall i v, nth_error vs i = Some v -> entry i v.

(** The algorithm and its state after [fit] on the first [i] observations. *)
Definition fitted {T F Y K} (E : env T F Y K) (c : cfg) (cbs : list callback) (a0 : alg) (drawn placed : list T) (ys : list Y) (i : nat) (a : alg) (s : sstate) : Prop :=
  exists calls, fit_alg E c cbs a0 drawn placed (firstn i ys) = (a, Ok (s, calls)).

(** An entry of a recording made at observation [i] (counted from 0) holds, for each of [d] components, the posterior average
    of the slots' numbers in the state after that observation, provided that no state particles were added then and the
    log weights and numbers are finite. *)
Definition averages_at {T F Y K} (E : env T F Y K) (c : cfg) (cbs : list callback) (a0 : alg) (drawn placed : list T) (ys : list Y) (d : nat)
    (numbers : Y -> alg -> sstate -> nat -> list xf) (i : nat) (v : list xf) : Prop :=
  List.length v = d /\
  forall y a1 s1 a2 s2, nth_error ys i = Some y -> fitted E c cbs a0 drawn placed ys i a1 s1 -> fitted E c cbs a0 drawn placed ys (S i) a2 s2 -> g_np (a_world a2) = g_np (a_world a1) ->
  forall w x j, j < d -> s_w s2 = map Fin w -> numbers y a2 s2 j = map Fin x -> nth j v NaN = Fin (posterior_average w x).
