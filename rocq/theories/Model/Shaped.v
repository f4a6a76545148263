(** Tensors with any number of dimensions, and torch's rules for combining shapes.

    A shape, and an index into it, is a list whose HEAD IS THE LAST DIMENSION: torch aligns shapes at their last
    dimensions, and every function modelled on top of this file speaks of dimensions -1 and -2, except [sum(dim=0)].
    Entries are reals, so infinite and NaN entries and rounding are out. *)
From Coq Require Import List Arith Reals.
From Verif.Model Require Import Base.
Import ListNotations.
Local Open Scope nat_scope.

Record ten : Type := Ten { shp : list nat; entry : list nat -> R }.

(** torch's broadcasting rule for two shapes: aligned at the last dimension, dimensions are equal or one of them is 1;
    a missing dimension counts as 1.  "The size of tensor a must match the size of tensor b" is a RuntimeError. *)
Fixpoint bshape (a b : list nat) : res (list nat) :=
  match a, b with
  | [], _ => Ok b
  | _, [] => Ok a
  | m :: a', n :: b' =>
      let! r := bshape a' b' in
      if m =? n then Ok (m :: r) else if m =? 1 then Ok (n :: r) else if n =? 1 then Ok (m :: r) else Raise RuntimeError
  end.

(** The entry of a tensor of shape [s] that stands at index [i] of a broadcast shape. *)
Fixpoint bidx (s i : list nat) : list nat :=
  match s, i with
  | m :: s', k :: i' => (if m =? 1 then 0 else k) :: bidx s' i'
  | _, _ => []
  end.

(** An entrywise operation with two arguments. *)
Definition lift2 (f : R -> R -> R) (t u : ten) : res ten :=
  let! s := bshape (shp t) (shp u) in
  Ok (Ten s (fun i => f (entry t (bidx (shp t) i)) (entry u (bidx (shp u) i)))).
Definition tadd := lift2 Rplus.
Definition tsub := lift2 Rminus.
Definition tmul := lift2 Rmult.

(** An entrywise operation with one argument. *)
Definition lift1 (f : R -> R) (t : ten) : ten := Ten (shp t) (fun i => f (entry t i)).

(** Sum of [f] over the indices below [n]. *)
Definition sum_over (n : nat) (f : nat -> R) : R := fold_right Rplus 0%R (map f (seq 0 n)).

(** [t.sum(dim=0)]; a tensor without dimensions is its own sum. *)
Definition sum0 (t : ten) : ten :=
  match shp t with
  | [] => t
  | _ :: _ => Ten (removelast (shp t)) (fun i => sum_over (last (shp t) 0) (fun k => entry t (i ++ [k])))
  end.

(** [t.unsqueeze(-1)]. *)
Definition unsqueeze1 (t : ten) : ten := Ten (1 :: shp t) (fun i => entry t (tl i)).
(** [t.unsqueeze(-2)]; "Dimension out of range" is an IndexError. *)
Definition unsqueeze2 (t : ten) : res ten :=
  match shp t with
  | [] => Raise IndexError
  | n :: s => Ok (Ten (n :: 1 :: s) (fun i => match i with j :: _ :: r => entry t (j :: r) | _ => 0%R end))
  end.
(** [t.squeeze(-1)]: the last dimension goes if it is 1; a tensor without dimensions is returned as it is. *)
Definition squeeze1 (t : ten) : ten :=
  match shp t with
  | 1 :: s => Ten s (fun i => entry t (0 :: i))
  | _ => t
  end.
(** [t.transpose(-2, -1)]. *)
Definition transpose21 (t : ten) : res ten :=
  match shp t with
  | n :: m :: s => Ok (Ten (m :: n :: s) (fun i => match i with j :: k :: r => entry t (k :: j :: r) | _ => 0%R end))
  | _ => Raise IndexError
  end.
(** [t.view(t.shape + (1, 1))]. *)
Definition view11 (t : ten) : ten := unsqueeze1 (unsqueeze1 t).
(** [t[..., 0, 0]]; "too many indices" is an IndexError. *)
Definition corner (t : ten) : res ten :=
  match shp t with
  | S _ :: S _ :: s => Ok (Ten s (fun i => entry t (0 :: 0 :: i)))
  | _ => Raise IndexError
  end.
(** [torch.eye(n)]. *)
Definition eye (n : nat) : ten :=
  Ten [n; n] (fun i => match i with j :: k :: _ => if j =? k then 1%R else 0%R | _ => 0%R end).

(** [t.matmul(u)] of two tensors with at least two dimensions: the matrices of the last two dimensions are multiplied,
    the dimensions before are broadcast. *)
Definition matmul2 (t u : ten) : res ten :=
  match shp t, shp u with
  | k :: m :: a, p :: k' :: b =>
      let! s := bshape a b in
      if k =? k' then
        Ok (Ten (p :: m :: s) (fun i => match i with
             | j :: i' :: r => sum_over k (fun l => entry t (l :: i' :: bidx a r) * entry u (j :: l :: bidx b r))%R
             | _ => 0%R
             end))
      else Raise RuntimeError
  | _, _ => Raise RuntimeError
  end.
(** [t.matmul(u)]: a factor with one dimension is read as a row on the left and as a column on the right, and the
    dimension added for this is taken out of the result; a factor without dimensions is a RuntimeError. *)
Definition tmatmul (t u : ten) : res ten :=
  match shp t, shp u with
  | [], _ | _, [] => Raise RuntimeError
  | [_], [_] =>
      let! t' := unsqueeze2 t in
      let! v := matmul2 t' (unsqueeze1 u) in
      corner v
  | [_], _ =>
      let! t' := unsqueeze2 t in
      let! v := matmul2 t' u in
      match shp v with
      | p :: _ :: s => Ok (Ten (p :: s) (fun i => match i with j :: r => entry v (j :: 0 :: r) | [] => 0%R end))
      | _ => Raise RuntimeError
      end
  | _, [_] =>
      let! v := matmul2 t (unsqueeze1 u) in
      Ok (squeeze1 v)
  | _, _ => matmul2 t u
  end.
