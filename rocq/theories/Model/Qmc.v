(** Model of pyfilter/inference/qmc.py, of QuasiInferenceContext.initialize_parameters (context.py:394-405) and of
    QuasiMultivariateNormal (inference/utils.py:16-39).  Floats are real numbers here: rounding is left out. *)
From Coq Require Import Reals List Bool Arith String.
From Verif.Model Require Import Base Xf Prior Context.
Import ListNotations.
Local Open Scope list_scope.
Local Open Scope nat_scope.

Section Qmc.
  (** [eps2]: EPS2 of constants.py:9, the machine epsilon.  [sobol d k]: the [k]-th point of a (scrambled) Sobol engine of
      dimension [d].  [uniform d]: [torch.empty(d).uniform_()]. *)
  Variable eps2 : R.
  Variable sobol : nat -> nat -> list R.
  Variable uniform : nat -> list R.

  (** qmc.py:12-23.  [e_pos]: the points drawn so far. *)
  Record engine : Type := Engine { e_dim : nat; e_randomize : bool; e_rotation : option (list R); e_pos : nat }.
  Definition new_engine (dim : nat) (randomize : bool) : engine := Engine dim randomize None 0.

  (** [torch.remainder(x, 1.0)] *)
  Definition remainder1 (x : R) : R := (x - IZR (Int_part x))%R.
  (** qmc.py:49. *)
  Definition safe (p : R) : R := (1 / 2 + (1 - eps2) * (p - 1 / 2))%R.
  (** qmc.py:40-46. *)
  Definition rotate (rotation probs : list R) : list R := map (fun p => remainder1 (fst p + snd p)) (combine probs rotation).

  (** qmc.py:25-52.  [shape]: the requested batch shape; the result is flattened to one row for each entry of it. *)
  Definition engine_sample (e : engine) (shape : list nat) : engine * list (list R) :=
    let numel := prod_list shape in
    let probs := map (sobol (e_dim e)) (seq (e_pos e) numel) in
    if e_randomize e then
      let rotation := match e_rotation e with None => uniform (e_dim e) | Some r => r end in
      (Engine (e_dim e) true (Some rotation) (e_pos e + numel), map (map safe) (map (rotate rotation) probs))
    else (Engine (e_dim e) false (e_rotation e) (e_pos e + numel), map (map safe) probs).

  (** [icdf d p]: [prior.unconstrained_prior().icdf] on one sample. *)
  Variable icdf : dist -> list xf -> list xf.

  (** parameter.py:116-131 inverse_sample_ with [constrained=False], for probabilities viewed as
      [batch_shape + prior.event_shape] (context.py:404): the view needs as many elements as the event shape has. *)
  Definition inverse_sample (p : nat) (rows : list (list xf)) : act unit :=
    do! d <- prior_of p in
    if forallb (fun r => List.length r =? prod_list (d_event d)) rows
    then copy_rows p (map (fun r => d_fwd d (icdf d r)) rows)
    else raise RuntimeError.

  (** context.py:394-405; the engine is kept in the context. *)
  Definition initialize_parameters (c : nat) (randomize : bool) : act engine :=
    do! out <- stack_parameters c false in
    do! x <- get_ctx c in
    match x_batch x with
    | None => raise BatchShapeNotSet
    | Some batch =>
        let (e, probs) := engine_sample (new_engine (List.length (nth 0 out [])) randomize) batch in
        do! _ <- apply_to_params (x_params x) (x_ushapes x) (map (map Fin) probs) 0 inverse_sample in
        ret e
    end.

  (** inference/utils.py:29-39, for one row of probabilities: [quantile] is [Normal(0, 1).icdf], [tril] the factor. *)
  Variable quantile : R -> R.
  Definition dot (a b : list R) : R := fold_right Rplus 0%R (map (fun p => (fst p * snd p)%R) (combine a b)).
  Definition quasi_normal_row (loc : list R) (tril : list (list R)) (probs : list R) : list R :=
    map (fun p => (fst p + snd p)%R) (combine loc (map (fun row => dot row (map quantile probs)) tril)).
  Definition quasi_normal (e : engine) (shape : list nat) (loc : list R) (tril : list (list R)) : engine * list (list R) :=
    let (e', probs) := engine_sample e shape in (e', map (quasi_normal_row loc tril) probs).
End Qmc.
