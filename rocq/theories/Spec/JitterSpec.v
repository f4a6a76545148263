(** Weighted samples, their moments and their quartiles. *)
From Coq Require Import Reals List Arith Permutation Sorted.
From Verif.Model Require Import Jitter.
Import ListNotations.
Local Open Scope nat_scope.

(** [n] particles with [d] components, normalised weights. *)
Record sample_ok (x : list (list R)) (w : list R) (n d : nat) : Prop := {
  s_rows : List.length x = n;
  s_cols : Forall (fun r => List.length r = d) x;
  s_weights : List.length w = n;
  s_pos : Forall (fun a => (0 <= a)%R) w;
  s_one : fold_right Rplus 0%R w = 1%R
}.
(** Component [j] of particle [i]. *)
Definition at_ (x : list (list R)) (i j : nat) : R := nth j (nth i x []) 0%R.
(** Sum of [f 0], ..., [f (n - 1)]. *)
Fixpoint total (n : nat) (f : nat -> R) : R := match n with 0 => 0%R | S m => (total m f + f m)%R end.
(** Mean and variance of component [j] under the weights. *)
Definition mean_of (x : list (list R)) (w : list R) (n j : nat) : R := total n (fun i => (nth i w 0 * at_ x i j)%R).
Definition var_of (x : list (list R)) (w : list R) (n j : nat) : R := total n (fun i => (nth i w 0 * (at_ x i j - mean_of x w n j) ^ 2)%R).
(** The weight of the particles whose component [j] is at most [y]. *)
Definition below (x : list (list R)) (w : list R) (n j : nat) (y : R) : R := total n (fun i => if Rle_dec (at_ x i j) y then nth i w 0%R else 0%R).
(** [y] is a value of component [j] among those for which that weight is nearest to [q]. *)
Definition quantile_of (x : list (list R)) (w : list R) (n j : nat) (q y : R) : Prop :=
  (exists i, i < n /\ at_ x i j = y) /\ forall i, i < n -> (Rabs (below x w n j y - q) <= Rabs (below x w n j (at_ x i j) - q))%R.
(** No two particles share component [j]. *)
Definition no_ties (x : list (list R)) (n j : nat) : Prop := forall i i', i < n -> i' < n -> at_ x i j = at_ x i' j -> i = i'.

(** What sort and argmin of torch deliver. *)
Definition order_ok (order : list R -> list nat) : Prop := forall l, Permutation (order l) (seq 0 (List.length l)) /\ StronglySorted Rle (map (fun i => nth i l 0%R) (order l)).
Definition argmin_ok (argmin : list R -> nat) : Prop := forall l, l <> [] -> argmin l < List.length l /\ forall a, In a l -> (nth (argmin l) l 0 <= a)%R.

(** Expectation over noise of mean zero and variance one. *)
Record noise_ok (E : (R -> R) -> R) : Prop := {
  n_lin : forall a b f g, E (fun z => (a * f z + b * g z)%R) = (a * E f + b * E g)%R;
  n_ext : forall f g, (forall z, f z = g z) -> E f = E g;
  n_one : E (fun _ => 1%R) = 1%R;
  n_mean : E (fun z => z) = 0%R;
  n_var : E (fun z => (z ^ 2)%R) = 1%R
}.
