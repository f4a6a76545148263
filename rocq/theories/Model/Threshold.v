(** Model of pyfilter/inference/sequential/threshold.py.  Floats are real numbers; rounding is left out. *)
From Coq Require Import Reals List ZArith.
Import ListNotations.
Local Open Scope R_scope.

(** threshold.py:5-20, 36-45, 48-67, 70-96: the three classes with the attributes their constructors set. *)
Inductive thresholder : Type :=
| Constant (low start : R)
| Decaying (low start alpha : R)
| Interval (low start : R) (thresholds : list (Z * R)).

(** threshold.py:41-42. *)
Definition constant_threshold (threshold : R) : thresholder := Constant threshold threshold.
(** threshold.py:53-64; a half life of zero divides by zero: [None] stands for the exception. *)
Definition decaying_threshold (low start : R) (half_life : Z) : option thresholder :=
  if Z.eqb half_life 0 then None else Some (Decaying low start (ln 2 / IZR half_life)).
(** [sorted(items, key=lambda u: u[0])]: stable, by the first component. *)
Fixpoint insert_by_key (u : Z * R) (l : list (Z * R)) : list (Z * R) :=
  match l with [] => [u] | v :: r => if Z.leb (fst u) (fst v) then u :: v :: r else v :: insert_by_key u r end.
Definition sorted_by_key (l : list (Z * R)) : list (Z * R) := fold_right insert_by_key [] l.
(** threshold.py:78-96; [thresholds]: the items of the dictionary in insertion order. *)
Definition interval_threshold (thresholds : list (Z * R)) (ending : R) : thresholder := Interval ending ending (sorted_by_key thresholds).

(** [next((u[1] for u in thresholds if iteration <= u[0]), default)] *)
Fixpoint next_or (iteration : Z) (default : R) (l : list (Z * R)) : R :=
  match l with [] => default | u :: r => if Z.leb iteration (fst u) then snd u else next_or iteration default r end.

(** threshold.py:22-23, 44-45, 66-67, 75-76 (_mutate_thresh). *)
Definition mutate_thresh (t : thresholder) (iteration : nat) : R :=
  match t with
  | Constant _ start => start
  | Decaying _ start alpha => exp (- alpha * INR iteration) * start
  | Interval low _ l => next_or (Z.of_nat iteration) low l
  end.
(** the attribute [_min] (threshold.py:19). *)
Definition lowest_threshold (t : thresholder) : R := match t with Constant low _ | Decaying low _ _ | Interval low _ _ => low end.
(** threshold.py:25-33. *)
Definition get_threshold (t : thresholder) (iteration : nat) : R := Rmax (mutate_thresh t iteration) (lowest_threshold t).
