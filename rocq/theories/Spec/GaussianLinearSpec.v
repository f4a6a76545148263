(** What a proposal that is optimal for a moment approximation of the predictive density should do. *)
From Coq Require Import Reals List.
From Verif.Model Require Import Base Xf Tensor Weights Particle Mode Proposal.
From Verif.Spec Require Import WeightsSpec ProposalSpec.
Import ListNotations.
Local Open Scope R_scope.

(** Mean and variance of the state after one transition with mean [f] and deviation [g] from particles [v] of weights [w]. *)
Definition next_mean (w v : list R) (f : R -> R) : R := expect f w v.
Definition next_variance (w v : list R) (f g : R -> R) : R := expect (fun x => g x * g x + (f x - next_mean w v f) * (f x - next_mean w v f)) w v.
(** Variance of the particles themselves. *)
Definition particle_variance (w v : list R) : R := expect (fun x => (x - expect (fun x => x) w v) * (x - expect (fun x => x) w v)) w v.
(** Bayes' rule: a normal state with mean [m] and deviation [g] that is observed through [y = a x + b + s noise] has, given
    [y], mean [loc] and deviation [sd]. *)
Definition posterior_of (m g a b s y loc sd : R) : Prop :=
  0 < sd /\ forall x, gauss m g x * gauss (a * x + b) s y = predictive_density a b s m g y * gauss loc sd x.
(** Automatic differentiation is exact: where a function has real values with a derivative everywhere, it returns that derivative. *)
Definition true_autodiff (autodiff : (xf -> xf) -> (xf -> xf)) : Prop := forall F h h',
  (forall z, F (Fin z) = Fin (h z)) -> (forall z, derivable_pt_lim h z (h' z)) -> forall z, autodiff F (Fin z) = Fin (h' z).
(** [n] steps up the gradient [h'] of length [alpha], from [z]. *)
Fixpoint climb (n : nat) (alpha : R) (h' : R -> R) (z : R) : R := match n with O => z | S n => let z := climb n alpha h' z in z + alpha * h' z end.
