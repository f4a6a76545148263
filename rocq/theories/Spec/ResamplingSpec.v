(** Specification vocabulary for resampling, independent of the model. *)
From Coq Require Import Reals List Arith ZArith.
From Verif.Spec Require Import WeightsSpec.
Import ListNotations.
Open Scope R_scope.

(** Sum of the first [i] weights. *)
Definition psum (w : list R) (i : nat) : R := Rsum (firstn i w).

(** Number of times [i] occurs. *)
Definition copies (i : nat) (l : list nat) : nat := count_occ Nat.eq_dec l i.

(** [|a - b|] is at most / less than one. *)
Definition within_one (k : nat) (x : R) : Prop := Rabs (INR k - x) <= 1.
Definition strictly_within_one (k : nat) (x : R) : Prop := Rabs (INR k - x) < 1.

(** The two-pointer algorithm of tests/test_resampling.py:8-30 (filterpy): [while i < N: if positions[i] <
    cumulative_sum[j]: indexes[i] = j; i += 1 else: j += 1].  [None]: [j] ran out of range or out of fuel. *)
Fixpoint two_pointer (fuel : nat) (positions : list R) (cumulative : list R) (j : nat) : option (list nat) :=
  match fuel with
  | O => None
  | S fuel =>
      match positions with
      | [] => Some []
      | p :: rest =>
          match nth_error cumulative j with
          | None => None
          | Some c => if Rlt_dec p c
                      then match two_pointer fuel rest cumulative j with Some l => Some (j :: l) | None => None end
                      else two_pointer fuel positions cumulative (S j)
          end
      end
  end.
Definition filterpy_systematic (w : list R) (u : nat -> R) : option (list nat) :=
  let n := length w in
  two_pointer (2 * n + 1)
              (map (fun i => (u i + INR i) / INR n) (seq 0 n))
              (map (fun i => psum w (S i)) (seq 0 n)) 0.

(** No grid point coincides with a partial sum. *)
Definition tie_free (w : list R) (u : nat -> R) : Prop :=
  forall i k, (i < length w)%nat -> (k < length w)%nat ->
    (INR k + u k) / INR (length w) <> psum w (S i).

(** Integer part of a non-negative real as a natural number: [k <= x < k+1]. *)
Definition floor_is (x : R) (k : nat) : Prop := INR k <= x < INR k + 1.
