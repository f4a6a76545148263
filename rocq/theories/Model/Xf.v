(** Floating point values without rounding: an exact real, an infinity or NaN, with IEEE-754 rules for the
    non-finite values.  Simplifications (trusted): no rounding, no overflow, no underflow, one unsigned zero
    (a division by zero is a division by +0, which is what the modelled code can produce: sums of
    non-negative numbers). *)
From Coq Require Import Reals List Bool.
Import ListNotations.
Open Scope R_scope.

Inductive xf : Type := Fin (r : R) | PInf | NInf | NaN.

Definition xopp (a : xf) : xf :=
  match a with Fin x => Fin (- x) | PInf => NInf | NInf => PInf | NaN => NaN end.

Definition xadd (a b : xf) : xf :=
  match a, b with
  | NaN, _ | _, NaN => NaN
  | Fin x, Fin y => Fin (x + y)
  | PInf, NInf | NInf, PInf => NaN
  | PInf, _ | _, PInf => PInf
  | NInf, _ | _, NInf => NInf
  end.

Definition xsub (a b : xf) : xf := xadd a (xopp b).

(** Sign of a real as a comparison with 0. *)
Definition rsign (x : R) : comparison :=
  match total_order_T x 0 with inleft (left _) => Lt | inleft (right _) => Eq | inright _ => Gt end.

(** An infinity of the given sign times / divided into a finite number. *)
Definition inf_times (pos : bool) (x : R) : xf :=
  match rsign x with
  | Eq => NaN
  | Gt => if pos then PInf else NInf
  | Lt => if pos then NInf else PInf
  end.

Definition xmul (a b : xf) : xf :=
  match a, b with
  | NaN, _ | _, NaN => NaN
  | Fin x, Fin y => Fin (x * y)
  | Fin x, PInf | PInf, Fin x => inf_times true x
  | Fin x, NInf | NInf, Fin x => inf_times false x
  | PInf, PInf | NInf, NInf => PInf
  | PInf, NInf | NInf, PInf => NInf
  end.

Definition xdiv (a b : xf) : xf :=
  match a, b with
  | NaN, _ | _, NaN => NaN
  | Fin x, Fin y =>
      if Req_EM_T y 0 then match rsign x with Eq => NaN | Gt => PInf | Lt => NInf end else Fin (x / y)
  | Fin _, _ => Fin 0
  | PInf, Fin y => if Req_EM_T y 0 then PInf else inf_times true y
  | NInf, Fin y => if Req_EM_T y 0 then NInf else inf_times false y
  | _, _ => NaN
  end.

Definition xrecip (a : xf) : xf := xdiv (Fin 1) a.

Definition xexp (a : xf) : xf :=
  match a with Fin x => Fin (exp x) | PInf => PInf | NInf => Fin 0 | NaN => NaN end.

Definition xlog (a : xf) : xf :=
  match a with
  | Fin x => match rsign x with Gt => Fin (ln x) | Eq => NInf | Lt => NaN end
  | PInf => PInf
  | NInf | NaN => NaN
  end.

(** [<], [<=], [==]: false as soon as a NaN is involved. *)
Definition xlt (a b : xf) : bool :=
  match a, b with
  | NaN, _ | _, NaN => false
  | Fin x, Fin y => if Rlt_dec x y then true else false
  | NInf, NInf => false
  | NInf, _ => true
  | _, NInf => false
  | PInf, _ => false
  | _, PInf => true
  end.
Definition xeq (a b : xf) : bool :=
  match a, b with
  | Fin x, Fin y => if Req_EM_T x y then true else false
  | PInf, PInf | NInf, NInf => true
  | _, _ => false
  end.
Definition xle (a b : xf) : bool := xlt a b || xeq a b.

Definition xisnan (a : xf) : bool := match a with NaN => true | _ => false end.
Definition xisfinite (a : xf) : bool := match a with Fin _ => true | _ => false end.

(** torch's max propagates NaN. *)
Definition xmax (a b : xf) : xf :=
  match a, b with
  | NaN, _ | _, NaN => NaN
  | _, _ => if xlt a b then b else a
  end.

(** Reductions along a dimension. *)
Definition xsum (l : list xf) : xf := fold_right xadd (Fin 0) l.
Definition xmaxl (l : list xf) : xf := fold_right xmax NInf l.

(** torch.softmax along a dimension: exp(x - max) / sum of the same. *)
Definition softmax (l : list xf) : list xf :=
  let m := xmaxl l in
  let e := map (fun x => xexp (xsub x m)) l in
  let s := xsum e in
  map (fun x => xdiv x s) e.
