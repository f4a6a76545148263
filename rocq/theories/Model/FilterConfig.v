(** Model of the configuration of a particle filter: pyfilter/filters/base.py (constructor, batch shape, model
    building), pyfilter/filters/particle/base.py (constructor, increase_particles, copy, initialize_model) and the
    constructors, [set_model] and [copy] methods of pyfilter/filters/particle/proposals. *)
From Coq Require Import Reals List Bool ZArith String.
From Verif.Model Require Import Base Container.
Import ListNotations.
Local Open Scope string_scope.

Section Config.
  (** [Ctx]: inference contexts; [M]: state space models; [Rs]: resampling functions; [F]: user supplied look-ahead
      functions (python callables, compared by identity). *)
  Context {Ctx M Rs F : Type}.
  (** stochproc class tests: [isinstance(model.hidden, AffineProcess)], [isinstance(model, LinearStateSpaceModel)]. *)
  Variable hidden_affine linear_model : M -> bool.

  (** proposals/pre_weight_funcs.py:9-15: the two functions of the library, or a user's own. *)
  Inductive pwf : Type := Custom (f : F) | AffineMean | Missing.

  (** proposals/pre_weight_funcs.py:18-33 get_pre_weight_func. *)
  Definition get_pre_weight_func (func : option pwf) (m : M) : pwf :=
    match func with
    | Some f => f
    | None => if hidden_affine m then AffineMean else Missing
    end.

  (** proposals/linearized.py:20-39: the four settings. *)
  Record lin_settings : Type :=
    Lin { l_steps : Z; l_alpha : R; l_second : bool; l_functorch : bool }.

  (** The proposal classes of proposals/__init__.py (LocalLinearization cannot be constructed: its constructor raises
      on local_linearization.py:40). *)
  Inductive pclass : Type :=
  | CBootstrap | CLinearGaussian | CLinearized (s : lin_settings)
  | CGaussian | CGaussianLinearized (s : lin_settings) | CGaussianLinear | CNested (num_samples : Z).

  (** proposals/base.py:28-30: class with its settings, bound model, look-ahead function. *)
  Record proposal : Type := Prop_ { pr_class : pclass; pr_model : option M; pr_pwf : option pwf }.

  (** The constructors: linearized.py:32 asserts a positive number of steps; the linearized classes take no
      look-ahead function. *)
  Definition mk_proposal (c : pclass) (f : option pwf) : res proposal :=
    match c with
    | CLinearized s | CGaussianLinearized s =>
        if (0 <? l_steps s)%Z then Ok (Prop_ c None None) else Raise AssertionError
    | _ => Ok (Prop_ c None f)
    end.

  (** proposals/base.py:32-43, linear.py:32-36, linearized.py:43-50 set_model (the mode finder, a function of model
      and settings, is not represented). *)
  Definition set_model (p : proposal) (m : M) : res proposal :=
    let ok := match pr_class p with
              | CLinearGaussian | CGaussianLinear => hidden_affine m && linear_model m
              | CLinearized _ | CGaussianLinearized _ => hidden_affine m
              | _ => true
              end in
    if ok then Ok (Prop_ (pr_class p) (Some m) (Some (get_pre_weight_func (pr_pwf p) m)))
    else Raise ValueError.

  (** bootstrap.py:16-17, linear.py:88-89, linearized.py:72-73, approximate.py:33-34, 66-67 (use_functorch is left at
      its default, True), 103-104, nested.py:49-50. *)
  Definition copy_proposal (p : proposal) : res proposal :=
    match pr_class p with
    | CGaussianLinearized s => mk_proposal (CGaussianLinearized (Lin (l_steps s) (l_alpha s) (l_second s) true)) None
    | c => mk_proposal c None
    end.

  (** The [model] argument of a filter: a state space model, a builder, or something else. *)
  Inductive model_arg : Type := AModel (m : M) | ABuilder (f : Ctx -> M) | AOther.

  Inductive fclass : Type := FSISR | FAPF | FGPF.

  Record pfilter : Type := PF {
    f_class : fclass;
    f_builder : Ctx -> M;
    f_model : option M;
    f_batch : list nat;
    f_record_states : maxlen_arg;
    f_record_moments : maxlen_arg;
    f_nan : string;
    f_intermediary : bool;
    f_particles : Z;
    f_threshold : R;
    f_resampler : Rs;
    f_proposal : proposal
  }.

  (** filters/base.py:22-69 and filters/particle/base.py:19-48, gpf.py:17-24.  A wrong [model] argument raises
      TypeError rather than the intended ValueError: formatting a class with [:s] on line 48 fails.
      [proposal = None]: Bootstrap (particle/base.py:45-46), for GPF GaussianProposal (gpf.py:23).
      Numbers: ess_threshold is a real, no rounding. *)
  Definition mk_filter (cls : fclass) (model : model_arg) (particles : Z) (resampling : Rs) (prop : option proposal)
             (ess_threshold : R) (record_states record_moments : maxlen_arg) (nan_strategy : string)
             (intermediary : bool) : res pfilter :=
    let! (builder, m) := match model with
                         | AModel m => Ok ((fun _ => m), Some m)
                         | ABuilder f => Ok (f, None)
                         | AOther => Raise TypeError
                         end in
    if (String.eqb nan_strategy "skip" || String.eqb nan_strategy "impute")%bool then
      let p := match prop with
               | Some p => p
               | None => Prop_ (match cls with FGPF => CGaussian | _ => CBootstrap end) None None
               end in
      Ok (PF cls builder m [] record_states record_moments nan_strategy intermediary particles
             (ess_threshold * IZR particles) resampling p)
    else Raise NotImplementedError.

  (** filters/base.py:93-119 set_batch_shape. *)
  Definition set_batch_shape (f : pfilter) (b : list nat) : res pfilter :=
    if (1 <? List.length b)%nat then Raise NotImplementedError
    else Ok (PF (f_class f) (f_builder f) (f_model f) b (f_record_states f) (f_record_moments f) (f_nan f)
                (f_intermediary f) (f_particles f) (f_threshold f) (f_resampler f) (f_proposal f)).

  (** filters/particle/base.py:72-81 increase_particles with an integer factor. *)
  Definition increase_particles (f : pfilter) (factor : Z) : pfilter :=
    PF (f_class f) (f_builder f) (f_model f) (f_batch f) (f_record_states f) (f_record_moments f) (f_nan f)
       (f_intermediary f) (factor * f_particles f) (f_threshold f * IZR factor) (f_resampler f) (f_proposal f).

  (** filters/base.py:75-83 and filters/particle/base.py:83-85 initialize_model. *)
  Definition initialize_model (f : pfilter) (ctx : Ctx) : res pfilter :=
    let m := f_builder f ctx in
    let! p := set_model (f_proposal f) m in
    Ok (PF (f_class f) (f_builder f) (Some m) (f_batch f) (f_record_states f) (f_record_moments f) (f_nan f)
           (f_intermediary f) (f_particles f) (f_threshold f) (f_resampler f) p).

  (** filters/particle/base.py:50-62: the shape of the particle tensors. *)
  Definition particles (f : pfilter) : list Z := f_particles f :: map Z.of_nat (f_batch f).

  (** filters/particle/base.py:87-90: what [initialize] checks and does before sampling. *)
  Definition initialize_guard (f : pfilter) : res proposal :=
    match f_model f with
    | None => Raise AssertionError
    | Some m => set_model (f_proposal f) m
    end.

  (** filters/particle/base.py:159-174 copy. *)
  Definition copy_filter (f : pfilter) : res pfilter :=
    let! p := copy_proposal (f_proposal f) in
    let! g := mk_filter (f_class f) (ABuilder (f_builder f)) (f_particles f) (f_resampler f) (Some p) (f_threshold f)
                (f_record_states f) (f_record_moments f) (f_nan f) (f_intermediary f) in
    set_batch_shape g (f_batch f).
End Config.
Arguments pwf F : clear implicits.
Arguments proposal M F : clear implicits.
Arguments pfilter Ctx M Rs F : clear implicits.
Arguments model_arg Ctx M : clear implicits.
