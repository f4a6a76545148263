(** What a tensor of many dimensions says, shapes and indices with the last dimension first, and the quantities the
    functions of Model/ShapedCode.v stand for. *)
From Coq Require Import List Arith Reals.
From Verif.Model Require Import Base Shaped ShapedCode.
Import ListNotations.
Local Open Scope nat_scope.

(** [i] is an index into the shape [s]. *)
Fixpoint inside (s i : list nat) : Prop :=
  match s, i with
  | [], [] => True
  | n :: s', k :: i' => k < n /\ inside s' i'
  | _, _ => False
  end.

(** [t] has the shape [s] and the entries [f]. *)
Definition holds (t : ten) (s : list nat) (f : list nat -> R) : Prop :=
  shp t = s /\ forall i, inside s i -> entry t i = f i.

(** A shape that is stretched to another one when tensors are combined: leading dimensions are left out or 1. *)
Inductive stretches : list nat -> list nat -> Prop :=
| stretches_nil s : stretches [] s
| stretches_same n a s : stretches a s -> stretches (n :: a) (n :: s)
| stretches_one n a s : stretches a s -> stretches (1 :: a) (n :: s).

(** Where an index into the stretched shape points to. *)
Fixpoint shrink (a i : list nat) : list nat :=
  match a, i with
  | 1 :: a', _ :: i' => 0 :: shrink a' i'
  | _ :: a', k :: i' => k :: shrink a' i'
  | _, _ => []
  end.

(** [t], stretched to the shape [s], has the entries [f]: a parameter that is the same for all particles or filters. *)
Definition reads (t : ten) (s : list nat) (f : list nat -> R) : Prop :=
  stretches (shp t) s /\ forall i, inside s i -> entry t (shrink (shp t) i) = f i.

Fixpoint total (n : nat) (f : nat -> R) : R := match n with 0 => 0%R | S k => (total k f + f k)%R end.

(** Weighted mean and covariance over [n] particles of the vectors at [b] (the index of the filter). *)
Definition weighted_mean (n : nat) (w x : list nat -> R) (b : list nat) (i : nat) : R :=
  total n (fun k => w (b ++ [k]) * x (i :: b ++ [k]))%R.
Definition weighted_covariance (n : nat) (w x : list nat -> R) (b : list nat) (i j : nat) : R :=
  total n (fun k => w (b ++ [k])
    * ((x (i :: b ++ [k]) - weighted_mean n w x b i) * (x (j :: b ++ [k]) - weighted_mean n w x b j)))%R.

(** [t] is, for every filter of the batch shape [bs], the covariance matrix of the [n] weighted [d]-vectors. *)
Definition is_covariance (n d : nat) (bs : list nat) (w x : list nat -> R) (t : ten) : Prop :=
  holds t (d :: d :: bs) (fun i => match i with j :: i' :: b => weighted_covariance n w x b i' j | _ => 0%R end).

(** A linear observation of a hidden vector: [fa] is the matrix (index [l :: i :: b]: column [l], row [i], filter or particle
    [b]), [fo] the offset, [fs] and [fh] the scales of the observation and of the hidden vector [fx] of [h] components. *)
Definition observed_mean (h : nat) (fo fa fx : list nat -> R) (i : nat) (b : list nat) : R :=
  (fo (i :: b) + total h (fun l => fa (l :: i :: b) * fx (l :: b)))%R.
Definition observed_covariance (h : nat) (fs fh fa : list nat -> R) (i j : nat) (b : list nat) : R :=
  ((if i =? j then fs (i :: b) ^ 2 else 0) + total h (fun l => fa (l :: i :: b) * fh (l :: b) ^ 2 * fa (l :: j :: b)))%R.

(** The batch shape of a distribution: of a Normal its shape, of a multivariate one the shape without the last dimension. *)
Definition batch_of (k : kernel) : list nat :=
  match k with KNormal loc _ => shp loc | KMultivariate loc _ => tl (shp loc) end.

(** An index without its second place. *)
Definition tl2 (i : list nat) : list nat := match i with j :: _ :: r => j :: r | _ => [] end.

(** A function of matrices that looks at their entries only, as an inverse does. *)
Definition looks_inside (inv : nat -> (nat -> nat -> R) -> nat -> nat -> R) : Prop := forall n m m' i j,
  (forall p q, p < n -> q < n -> m p q = m' p q) -> i < n -> j < n -> inv n m i j = inv n m' i j.

(** Inverse covariance of the hidden vector given the observation, inverse variances [fp] of its prior and [fq] of the
    observation; [inv] inverts matrices. *)
Definition posterior_precision (k : nat) (fp fq fc : list nat -> R) (b : list nat) (i j : nat) : R :=
  ((if i =? j then fp (i :: b) else 0) + total k (fun l => fc (i :: l :: b) * fq (l :: b) * fc (j :: l :: b)))%R.
Definition posterior_mean (h k : nat) (inv : nat -> (nat -> nat -> R) -> nat -> nat -> R) (fp fq fc fm fy : list nat -> R)
  (i : nat) (b : list nat) : R :=
  total h (fun j => inv h (posterior_precision k fp fq fc b) i j
    * (fp (j :: b) * fm (j :: b) + total k (fun l => fc (j :: l :: b) * (fq (l :: b) * fy (l :: b)))))%R.
