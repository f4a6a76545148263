(** Model of pyfilter/inference/batch/mcmc: utils.py (run_pmmh), pmmh.py, state.py and the proposals.

    A context is represented by the list of its rows, one row of unconstrained parameters for each chain
    (stack_parameters, unstack_parameters and exchange of contexts are modelled and proved in Context.v, C40-C43); a
    filter result by the list of the results of the single chains (FilterResult.exchange is modelled in Result.v). *)
From Coq Require Import Reals List Bool Arith.
From Verif.Model Require Import Base Xf.
Import ListNotations.
Local Open Scope nat_scope.

Definition zip_with {A B C} (f : A -> B -> C) (a : list A) (b : list B) : list C := map (fun p => f (fst p) (snd p)) (combine a b).
(** [a[mask] = b[mask]] *)
Definition where_ {A} (mask : list bool) (b a : list A) : list A := zip_with (fun (m : bool) p => if m then fst p else snd p) mask (combine b a).

Section Pmmh.
  (** [T]: a row of unconstrained parameters.  [F]: the result of one filter.  [K]: a proposal distribution. *)
  Context {T F K : Type}.
  (** FilterResult.loglikelihood and context.eval_priors(constrained=False), for one chain. *)
  Variable ll : F -> xf.
  Variable log_prior : T -> xf.
  (** A proposal (proposals/base.py:11-48): [build context weights result], [log_prob] of all rows, [exchange]. *)
  Variable build : list T -> list xf -> list F -> K.
  Variable log_prob : K -> list T -> list xf.
  Variable exchange_kernel : K -> K -> list bool -> K.

  (** What a PMMH step changes: the context, state.filter_state, the kernel. *)
  Record chains : Type := Chains { positions : list T; results : list F; kern : K }.

  (** utils.py:45-77.  [rvs]: proposal_kernel.sample(size); [run]: initialize_model(proposal_context) and batch_filter;
      [weights]: the weights of state.replicate(new_res); [uniforms]: the uniform numbers of line 68. *)
  Definition run_pmmh (rvs : list T) (run : list T -> list F) (weights : list xf) (uniforms : list R) (mutate_kernel : bool) (c : chains) : chains * list bool :=
    let new_res := run rvs in
    let diff_logl := zip_with xsub (map ll new_res) (map ll (results c)) in
    let diff_prior := zip_with xsub (map log_prior rvs) (map log_prior (positions c)) in
    let new_kernel := build rvs weights new_res in
    let diff_prop := zip_with xsub (log_prob new_kernel (positions c)) (log_prob (kern c) rvs) in
    let log_acc_prob := zip_with xadd (zip_with xadd diff_prop diff_prior) diff_logl in
    let accepted := zip_with xlt (map (fun u => xlog (Fin u)) uniforms) log_acc_prob in
    (Chains (where_ accepted rvs (positions c)) (where_ accepted new_res (results c))
            (if mutate_kernel then exchange_kernel (kern c) new_kernel accepted else kern c), accepted).

  (** pmmh.py:57, 62-70: how the chains start. *)
  Inductive initializer : Type := InitSeed | InitMean | InitOther.

  (** pmmh.py:59-74.  [drawn]: the parameters sampled while the model is built (line 60); [mean]: the Monte Carlo means
      (line 62); [first_run at_build now]: batch_filter with a model built from the first and the parameters in place
      being the second argument.  The result: context, filter result, recorded samples. *)
  Definition initialize (i : initializer) (drawn mean : list T) (first_run : list T -> list T -> list F) : res (list T * list F * list (list T)) :=
    match i with
    | InitMean => Ok (mean, first_run drawn mean, [mean])
    | InitSeed | InitOther => Raise NotImplementedError
    end.

  (** pmmh.py:89-102: [n] iterations; [rvs i k], [run i], [uniforms i] belong to iteration [i].  [samples]: state.samples,
      one entry for each time (state.py:28-38); the zero weights stand for the replica's, which has none (inference/state.py:29-37). *)
  Fixpoint iterate (n i : nat) (rvs : nat -> K -> list T) (run : nat -> list T -> list F) (uniforms : nat -> list R) (c : chains) (samples : list (list T)) : chains * list (list T) :=
    match n with
    | 0 => (c, samples)
    | S m =>
        let c' := fst (run_pmmh (rvs i (kern c)) (run i) [] (uniforms i) true c) in
        iterate m (S i) rvs run uniforms c' (samples ++ [positions c'])
    end.
  (** pmmh.py:76-104. *)
  Definition fit (i : initializer) (num_samples : nat) (drawn mean : list T) (first_run : list T -> list T -> list F)
      (rvs : nat -> K -> list T) (run : nat -> list T -> list F) (uniforms : nat -> list R) : res (chains * list (list T)) :=
    let! s := initialize i drawn mean first_run in
    let '(theta, res, samples) := s in
    Ok (iterate num_samples 0 rvs run uniforms (Chains theta res (build theta [] res)) samples).
End Pmmh.
Arguments Chains {T F K}.

(** * The random walk (proposals/random_walk.py) *)
Section Walk.
  Context {F : Type}.
  (** Log density of [Normal(mean, std).to_event(1)]. *)
  Definition normal_logpdf (m s x : R) : R := (- (x - m) ^ 2 / (2 * s ^ 2) - ln s - ln (sqrt (2 * PI)))%R.
  Definition normal_log_prob (mean std x : list R) : xf :=
    Fin (fold_right Rplus 0%R (map (fun p => normal_logpdf (fst (fst p)) (snd (fst p)) (snd p)) (combine (combine mean std) x))).
  (** random_walk.py:31-32: [scale] has one entry for each component (a float is repeated). *)
  Definition walk_build (scale : list R) (rows : list (list R)) (weights : list xf) (fs : list F) : list (list R * list R) :=
    map (fun r => (r, scale)) rows.
  Definition walk_log_prob (k : list (list R * list R)) (rows : list (list R)) : list xf :=
    zip_with (fun p x => normal_log_prob (fst p) (snd p) x) k rows.
  (** random_walk.py:34-36.  [Independent.stddev] is computed anew at each access, so the second assignment of the code is
      lost; both scales are the same constant, and so the modelled exchange of scales gives the same. *)
  Definition walk_exchange (latest candidate : list (list R * list R)) (mask : list bool) : list (list R * list R) :=
    combine (where_ mask (map fst candidate) (map fst latest)) (where_ mask (map snd candidate) (map snd latest)).
End Walk.

(** * SymmetricMH (proposals/symmetric_mh.py), for a single parameter *)
Section Symmetric.
  Context {F : Type}.
  (** utils.py:42-56 (calc_mean_chol) and 59-76 (construct_mvn) of pyfilter/inference for one component: mean and 1.1
      times the standard deviation under the normalised weights; [normalised] stands for them. *)
  Definition symmetric_build (normalised : list xf -> list R) (rows : list R) (weights : list xf) (fs : list F) : R * R :=
    let w := normalised weights in
    let m := fold_right Rplus 0%R (zip_with Rmult w rows) in
    (m, (11 / 10 * sqrt (fold_right Rplus 0 (zip_with (fun a x => a * (x - m) ^ 2) w rows)))%R).
  Definition symmetric_log_prob (k : R * R) (rows : list R) : list xf := map (fun x => Fin (normal_logpdf (fst k) (snd k) x)) rows.
  (** symmetric_mh.py:25-26. *)
  Definition symmetric_exchange (latest candidate : R * R) (mask : list bool) : R * R := latest.
End Symmetric.

(** * GradientBasedProposal (proposals/gradient.py:65-97), for one component of one chain *)
(** [acc]: parameter.grad before (None counts as zero): [backward] adds to it, and nothing ever resets it.  [theta]: the
    unconstrained value, [gradient]: the gradient of lines 79-83.  Result: location of the kernel, parameter.grad. *)
Definition gradient_build (eps acc theta gradient : R) : R * R :=
  let acc' := (acc + gradient)%R in ((theta + eps * acc')%R, acc').
(** The locations of successive kernels built from the same context. *)
Fixpoint gradient_locations (eps acc : R) (l : list (R * R)) : list R :=
  match l with [] => [] | (theta, g) :: r => let (loc, acc') := gradient_build eps acc theta g in loc :: gradient_locations eps acc' r end.
