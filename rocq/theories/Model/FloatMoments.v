(** Model of get_filter_mean_and_variance (pyfilter/filters/particle/utils.py) in floating point arithmetic, for one filter and
    one component of the state; see Model/FloatResampling.v for the numbers.  Model/Weights.v models the same lines without
    rounding. *)
From Coq Require Import ZArith List Bool.
From Flocq Require Import Core.Core IEEE754.BinarySingleNaN.
From Verif.Model Require Import Base FloatResampling.
Import ListNotations.

Section Moments.
  Context {prec emax : Z} {Hp : Prec_gt_0 prec} {He : Prec_lt_emax prec emax}.
  Notation float := (binary_float prec emax).
  (** The order of summation of the device: external. *)
  Variable fsum : list float -> float.

  (** filters/particle/utils.py:47 [(weights * values).sum(dim=0)]. *)
  Definition filter_mean (values weights : list float) : float :=
    fsum (map (fun wx => fmul (fst wx) (snd wx)) (combine weights values)).
  (** filters/particle/utils.py:51, 54 [(weights * centered.pow(2.0)).sum(dim=0)]; torch computes pow(2.0) as a product. *)
  Definition filter_variance (values weights : list float) : float :=
    let mean := filter_mean values weights in
    let centered := map (fun x => fsub x mean) values in
    fsum (map (fun wc => fmul (fst wc) (fmul (snd wc) (snd wc))) (combine weights centered)).
  (** filters/particle/utils.py:26-65 get_filter_mean_and_variance, one component (covariance=False). *)
  Definition get_filter_mean_and_variance (values weights : list float) : float * float :=
    (filter_mean values weights, filter_variance values weights).
End Moments.
