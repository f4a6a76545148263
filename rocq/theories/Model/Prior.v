(** Model of the priors: pyfilter/inference/prior.py, and of what the package uses of torch's distributions. *)
From Coq Require Import Reals List Bool String.
From Verif.Model Require Import Base Xf.
Import ListNotations.
Local Open Scope list_scope.

(** An object of a torch (pyro) distribution class.
    [d_class]: its class.  [d_args]: the values of the attributes named by [arg_constraints], flattened; a tensor with
    one element is a list of length one.  [d_rest]: whatever else determines the distribution (the base distribution of
    [Independent], base and transforms of [TransformedDistribution], ... whose [arg_constraints] are empty).
    [d_batched]: [batch_shape != torch.Size([])].  [d_event], [d_uevent]: event shapes of the distribution and of
    [unconstrained_prior()].  [d_support]: [support.check] on one sample (flattened).  [d_fwd], [d_inv]: the bijection
    [biject_to(support)] (prior.py:47-52) and its inverse on one sample.  [d_logp]: [log_prob] of one sample; [d_ulogp]: that of
    [unconstrained_prior()] (prior.py:54-62).  Constraints and bijections act on flattened samples, which is what happens
    for event shapes of at most one dimension. *)
Record dist : Type := Dist {
  d_class : string; d_args : odict (list xf); d_rest : nat; d_batched : bool;
  d_event : list nat; d_uevent : list nat;
  d_support : list xf -> bool; d_fwd : list xf -> list xf; d_inv : list xf -> list xf; d_logp : list xf -> xf; d_ulogp : list xf -> xf
}.

(** Elementwise comparison [x == y] of floats: NaN is different from everything. *)
Definition xeqb (a b : xf) : bool :=
  match a, b with
  | Fin x, Fin y => if Req_EM_T x y then true else false
  | PInf, PInf | NInf, NInf => true
  | _, _ => false
  end.
(** Broadcasting of two flattened tensors of one dimension at most. *)
Definition broadcast {A} (x y : list A) : res (list (A * A)) :=
  match x, y with
  | [a], _ => Ok (map (pair a) y)
  | _, [b] => Ok (map (fun a => (a, b)) x)
  | _, _ => if Nat.eqb (List.length x) (List.length y) then Ok (combine x y) else Raise RuntimeError
  end.
(** [(x_val != y_val).any()] (prior.py:26) and [(x == y).all()] (context.py:318). *)
Definition any_ne (x y : list xf) : res bool :=
  let! p := broadcast x y in Ok (existsb (fun q => negb (xeqb (fst q) (snd q))) p).
Definition all_eq (x y : list xf) : res bool :=
  let! p := broadcast x y in Ok (forallb (fun q => xeqb (fst q) (snd q)) p).

(** prior.py:22-29, the loop. *)
Fixpoint same_args (args : odict (list xf)) (y : dist) : res bool :=
  match args with
  | [] => Ok true
  | (k, x_val) :: r =>
      match od_get k (d_args y) with
      | None => Raise AttributeError
      | Some y_val => let! ne := any_ne x_val y_val in if ne then Ok false else same_args r y
      end
  end.
(** prior.py:10-29 verify_same_prior. *)
Definition verify_same_prior (x y : dist) : res bool :=
  if String.eqb (d_class x) (d_class y) then same_args (d_args x) y else Ok false.
(** prior.py:141-152 equivalent_to another distribution. *)
Definition equivalent_to (x y : dist) : res bool := verify_same_prior x y.
