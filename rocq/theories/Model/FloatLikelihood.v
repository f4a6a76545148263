(** Model of log_likelihood (pyfilter/filters/particle/utils.py) in floating point arithmetic, for one filter; see
    Model/FloatResampling.v for the numbers.  Model/Weights.v models the same lines without rounding. *)
From Coq Require Import ZArith List Bool.
From Flocq Require Import Core.Core IEEE754.BinarySingleNaN.
From Verif.Model Require Import Base FloatResampling.
Import ListNotations.

Section Likelihood.
  Context {prec emax : Z} {Hp : Prec_gt_0 prec} {He : Prec_lt_emax prec emax}.
  Notation float := (binary_float prec emax).
  (** The format of python's numbers (float64). *)
  Variables (prec' emax' : Z).
  Context {Hp' : Prec_gt_0 prec'} {He' : Prec_lt_emax prec' emax'}.
  (** The exponential function, the logarithm and the order of summation of the device: external. *)
  Variables (fexp flog : float -> float) (fsum : list float -> float).

  (** filters/particle/utils.py:20 [1.0 / importance_weights.shape[0]]: a python number, converted to the dtype of the tensor it is
      multiplied with. *)
  Definition uniform_weight (n : nat) : float := convert (fdiv Bone (of_nat n : binary_float prec' emax')).

  (** filters/particle/utils.py:7-22 log_likelihood.  Line 16 raises on an empty tensor. *)
  Definition log_likelihood (importance_weights : list float) (weights : option (list float)) : res float :=
    match importance_weights with
    | [] => Raise IndexError
    | _ =>
        let max_w := fmaxl importance_weights in
        let temp := map (fun x => fexp (fsub x max_w)) importance_weights in
        let weighted := match weights with
                        | None => map (fun t => fmul (uniform_weight (length importance_weights)) t) temp
                        | Some w => map (fun wt => fmul (fst wt) (snd wt)) (combine w temp)
                        end in
        Ok (fadd max_w (flog (fsum weighted)))
    end.
End Likelihood.
