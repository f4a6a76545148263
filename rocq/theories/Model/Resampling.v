(** Model of pyfilter/resampling.py. *)
From Coq Require Import Reals List Bool ZArith Lia.
From Verif.Model Require Import Base Xf Tensor Weights.
Import ListNotations.
Open Scope R_scope.

(** [Tensor.cumsum(-1)] of one row. *)
Fixpoint cumsum_from (acc : xf) (l : list xf) : list xf :=
  match l with [] => [] | x :: r => xadd acc x :: cumsum_from (xadd acc x) r end.
Definition cumsum (l : list xf) : list xf := cumsum_from (Fin 0) l.

(** resampling.py:49 [cumsum[..., -1] = 1.0]. *)
Fixpoint set_last (v : xf) (l : list xf) : list xf :=
  match l with [] => [] | [_] => [v] | x :: r => x :: set_last v r end.

(** [torch.searchsorted(sorted, value)] with the default [right=False], one value: the lower-bound bisection of
    ATen/native/Bucketization.cpp, [while (start < end) { mid = start + ((end - start) >> 1);
    if (!(bd[mid] >= val)) start = mid + 1; else end = mid; }].  [fuel] bounds the number of iterations;
    [searchsorted] gives it the length of the sequence, which is always enough (Proofs: the loop halves). *)
Fixpoint lower_bound (fuel start stop : nat) (bd : nat -> xf) (val : xf) : nat :=
  match fuel with
  | O => start
  | S fuel =>
      if (start <? stop)%nat
      then let mid := (start + (stop - start) / 2)%nat in
           if negb (xle val (bd mid))
           then lower_bound fuel (S mid) stop bd val
           else lower_bound fuel start mid bd val
      else start
  end.
Definition searchsorted (sorted : list xf) (val : xf) : nat :=
  lower_bound (length sorted) 0 (length sorted) (fun i => nth i sorted NaN) val.

(** resampling.py:40-50 systematic, one row; [u k] is the offset broadcast to position [k]
    (a scalar or a (B, 1) tensor gives a constant function, a (B, N) tensor an arbitrary one). *)
Definition systematic_row (w : list xf) (u : nat -> R) : res (list nat) :=
  match w with
  | [] => Raise IndexError
  | _ =>
      let n := length w in
      let cum := set_last (Fin 1) (cumsum w) in
      Ok (map (fun k => searchsorted cum (Fin ((INR k + u k) / INR n))) (seq 0 n))
  end.

(** A weight argument: one filter or a batch of filters. *)
Inductive warg : Type := W1 (w : list xf) | W2 (w : mat xf).
Inductive iarg : Type := I1 (i : list nat) | I2 (i : mat nat).

(** A resampling function after the decorator's reshaping: rows are filters.  [Row] is a one-dimensional argument. *)
Inductive rows_arg : Type := Row (w : list xf) | Rows (n : nat) (ws : list (list xf)).

Fixpoint traverse {A B} (f : A -> res B) (l : list A) : res (list B) :=
  match l with
  | [] => Ok []
  | x :: r => let! y := f x in let! ys := traverse f r in Ok (y :: ys)
  end.

Section Resampling.
  Variable lowest : R.

  (** normalize applied column by column (pyfilter/utils.py:49-64 reduces over dimension 0 only). *)
  Definition normalize_arg (w : warg) : res warg :=
    match w with
    | W1 l => let! (p, _) := normalize lowest l in Ok (W1 p)
    | W2 m =>
        let! cols := traverse (fun j => let! (p, _) := normalize lowest (col m j) in Ok p) (seq 0 (m_cols m)) in
        Ok (W2 (moveaxis (of_rows NaN (m_rows m) cols)))
    end.

  (** resampling.py:8-21 [_wrapper].  [f kwargs rows]: the decorated function.  Line 14 calls [f(w, *kwargs)]:
      the *keys* of the keyword dictionary are passed positionally, so the value given for [u] is dropped and
      the string "u" arrives as the unused parameter [normalized]; hence [None] below.  Line 17 passes the
      keywords on. *)
  Definition wrapper {U} (f : option U -> rows_arg -> res (list (list nat)))
             (w : warg) (normalized : bool) (u : option U) : res iarg :=
    let! w := (if normalized then Ok w else normalize_arg w) in
    match w with
    | W1 l => let! r := f None (Row l) in Ok (I1 (nth 0 r []))
    | W2 m =>
        let! r := f u (Rows (m_rows m) (map (col m) (seq 0 (m_cols m)))) in
        Ok (I2 (moveaxis (of_rows 0%nat (m_rows m) r)))
    end.

  (** The keyword [u]: a tensor (broadcast to one value per filter and position) or a python float. *)
  Inductive uarg : Type := UTensor (u : nat -> nat -> R) | UFloat (u : R).

  (** resampling.py:24-52 systematic.  [rand b]: the uniform draw for row [b] when no offset is given.
      Line 44 reads [u.dtype], which a python float does not have. *)
  Definition systematic_rows (rand : nat -> R) (u : option uarg) (a : rows_arg) : res (list (list nat)) :=
    let! off := match u with
                | Some (UTensor u) => Ok u
                | Some (UFloat _) => Raise AttributeError
                | None => Ok (fun b _ => rand b)
                end in
    match a with
    | Row w => let! i := systematic_row w (off 0%nat) in Ok [i]
    | Rows _ ws => traverse (fun bw => systematic_row (snd bw) (off (fst bw))) (combine (seq 0 (length ws)) ws)
    end.
  Definition systematic (rand : nat -> R) (w : warg) (normalized : bool) (u : option uarg) : res iarg :=
    wrapper (systematic_rows rand) w normalized u.

  (** resampling.py:55-65 multinomial.  [draw b p m]: torch.multinomial on row [b], [m] draws with replacement
      (external; it may raise). *)
  Definition multinomial_rows (draw : nat -> list xf -> nat -> res (list nat)) (_ : option unit) (a : rows_arg)
    : res (list (list nat)) :=
    match a with
    | Row w => let! i := draw 0%nat w (length w) in Ok [i]
    | Rows n ws => traverse (fun bw => draw (fst bw) (snd bw) (length (snd bw))) (combine (seq 0 (length ws)) ws)
    end.
  Definition multinomial draw (w : warg) (normalized : bool) : res iarg :=
    wrapper (multinomial_rows draw) w normalized None.

  (** Tensor.repeat_interleave on a range. *)
  Fixpoint repeat_interleave (start : nat) (reps : list nat) : list nat :=
    match reps with [] => [] | k :: r => repeat start k ++ repeat_interleave (S start) r end.

  (** resampling.py:83-105 residual, one row of numbers.  [draw]: torch.multinomial.  A negative repeat count,
      a slice assignment of the wrong length and a division by zero elements (the multinomial is then given
      non-finite probabilities) all raise RuntimeError. *)
  Definition residual_row (draw : list xf -> nat -> res (list nat)) (w : list R) : res (list nat) :=
    let n := length w in
    let mw := map (fun x => INR n * x) w in
    let floored := map Int_part mw in
    let numelems := fold_right Z.add 0%Z floored in
    if existsb (fun z => (z <? 0)%Z) floored then Raise RuntimeError else
    let modded := repeat_interleave 0 (map Z.to_nat floored) in
    if (Z.of_nat n <? numelems)%Z then Raise RuntimeError else
    if (numelems =? Z.of_nat n)%Z then Ok modded else
    if (numelems =? 0)%Z then Raise RuntimeError else
    let resid := map (fun x => Fin ((x - IZR (Int_part x)) / IZR numelems)) mw in
    let! extra := draw resid (n - Z.to_nat numelems)%nat in
    Ok (modded ++ extra).

  (** Finite entries of a row, if all are; a NaN weight is turned into an unrepresentable integer at line 92 and
      refused by repeat_interleave. *)
  Fixpoint finite_row (l : list xf) : option (list R) :=
    match l with
    | [] => Some []
    | Fin r :: t => match finite_row t with Some rs => Some (r :: rs) | None => None end
    | _ => None
    end.

  (** resampling.py:68-105 residual. *)
  Definition residual_rows (draw : list xf -> nat -> res (list nat)) (_ : option unit) (a : rows_arg)
    : res (list (list nat)) :=
    match a with
    | Rows _ _ => Raise NotImplementedError
    | Row w => match finite_row w with
               | Some rs => let! i := residual_row draw rs in Ok [i]
               | None => Raise RuntimeError
               end
    end.
  Definition residual draw (w : warg) (normalized : bool) : res iarg :=
    wrapper (residual_rows draw) w normalized None.
End Resampling.
