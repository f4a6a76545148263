(** Model of the proposals: pyfilter/filters/particle/proposals/{base,bootstrap,linear,linearized,approximate,nested}.py
    and find_optimal_density of proposals/utils.py, for a hidden process and observations of one dimension
    ([n_dim == 0]; several dimensions: Model/ProposalMx.v).
    Particles are a [mat] (Model/Particle.v); parameters of the state space model may differ between the parallel
    filters, so the functions of the model take the column. *)
From Coq Require Import Reals List Bool Arith.
From Verif.Model Require Import Base Xf Tensor Weights Particle Mode.
Import ListNotations.
Local Open Scope nat_scope.

(** stochproc's TimeseriesState.propagate_from: new values, one step later. *)
Definition propagate_from {X} (x : tstate X) (values : mat X) : tstate X := TS (S (ts_time x)) values.
(** stochproc's TimeseriesState.copy: new values at the same time. *)
Definition copy_state {X} (x : tstate X) (values : mat X) : tstate X := TS (ts_time x) values.

(** torch's Normal.log_prob. *)
Definition normal_logp (loc scale value : xf) : xf :=
  let d := xsub value loc in
  xsub (xsub (xdiv (xopp (xmul d d)) (xmul (Fin 2) (xmul scale scale))) (xlog scale)) (Fin (ln (sqrt (2 * PI)))).

(** stochproc's state space model, as seen by the proposals (all functions take time index and column).
    [mean_scale]: AffineProcess.mean_scale at a previous value.  [hid_logp]: [hidden.build_density(x).log_prob(v)].
    [hid_draw]: a sample from that density for all particles, at a position of the random stream.  [obs_logp]:
    [model.build_density(x).log_prob(y)].  [par_a], [par_b], [par_s]: parameters of a LinearStateSpaceModel. *)
Record ssm : Type := SSM {
  mean_scale : nat -> nat -> xf -> xf * xf;
  hid_logp : nat -> nat -> xf -> xf -> xf;
  hid_draw : nat -> tstate xf -> mat xf;
  obs_logp : nat -> nat -> xf -> xf -> xf;
  par_a : nat -> xf; par_b : nat -> xf; par_s : nat -> xf
}.

(** proposals/utils.py:219-267 find_optimal_density for one particle: location and scale of the normal returned. *)
Definition find_optimal_density (y loc h_var_inv o_var_inv c : xf) : xf * xf :=
  let t_2 := xmul (xmul c o_var_inv) c in
  let cov := xinv (xadd h_var_inv t_2) in
  let t_1 := xmul h_var_inv loc in
  let t_3 := xmul c (xmul o_var_inv y) in
  (xmul cov (xadd t_1 t_3), xsqrt cov).

Section Proposals.
  Variable M : ssm.
  (** [normals r i j]: standard normal number for particle [i] of filter [j].  [autodiff f]: the derivative of [f] by
      automatic differentiation.  [pick r i j probs]: the outcome of Categorical(probs). *)
  Variable normals : nat -> nat -> nat -> R.
  Variable autodiff : (xf -> xf) -> (xf -> xf).
  Variable pick : nat -> nat -> nat -> list xf -> nat.

  (** [kernel.sample] of a normal. *)
  Definition normal_draw (r i j : nat) (k : xf * xf) : xf := xadd (fst k) (xmul (snd k) (Fin (normals r i j))).
  Definition draws (r : nat) (k : mat (xf * xf)) : mat xf :=
    Mat (m_rows k) (m_cols k) (fun i j => normal_draw r i j (m_get k i j)).
  Definition kernel_logp (k : mat (xf * xf)) (v : mat xf) : mat xf := zip_mat (fun k v => normal_logp (fst k) (snd k) v) k v.

  (** [self._model.build_density(x).log_prob(y)]. *)
  Definition obs_weight (y : xf) (x : tstate xf) : mat xf :=
    Mat (m_rows (ts_val x)) (m_cols (ts_val x)) (fun i j => obs_logp M (ts_time x) j (m_get (ts_val x) i j) y).
  (** [hidden.build_density(x).log_prob(v)]: filters/particle/state.py:56-57. *)
  Definition hid_weight (x : tstate xf) (v : mat xf) : mat xf :=
    Mat (m_rows v) (m_cols v) (fun i j => hid_logp M (ts_time x) j (m_get (ts_val x) i j) (m_get v i j)).

  (** proposals/base.py:45-50 _weight_with_kernel; [x_logp]: log density of the new values under [x_dist]. *)
  Definition weight_with_kernel (y : xf) (x_logp : mat xf) (x_new : tstate xf) (k : mat (xf * xf)) : mat xf :=
    zip_mat xsub (zip_mat xadd (obs_weight y x_new) x_logp) (kernel_logp k (ts_val x_new)).

  (** stochproc's [hidden.propagate(x)]. *)
  Definition hid_propagate (r : nat) (x : tstate xf) : tstate xf := propagate_from x (hid_draw M r x).

  Definition like {A} (v : mat xf) (f : nat -> nat -> A) : mat A := Mat (m_rows v) (m_cols v) f.

  (** bootstrap.py:10-14. *)
  Definition bootstrap (r : nat) (y : xf) (x : tstate xf) : tstate xf * mat xf :=
    let new_x := hid_propagate r x in (new_x, obs_weight y new_x).

  (** linear.py:38-55. *)
  Definition linear_kernel (y : xf) (x : tstate xf) : mat (xf * xf) :=
    like (ts_val x) (fun i j =>
      let (mean, scale) := mean_scale M (ts_time x) j (m_get (ts_val x) i j) in
      find_optimal_density (xsub y (par_b M j)) mean (xinv (xmul scale scale)) (xinv (xmul (par_s M j) (par_s M j))) (par_a M j)).
  Definition linear (r : nat) (y : xf) (x : tstate xf) : tstate xf * mat xf :=
    let x_copy := copy_state x (like (ts_val x) (fun i j => fst (mean_scale M (ts_time x) j (m_get (ts_val x) i j)))) in
    let kernel := linear_kernel y x in
    let x_result := propagate_from x_copy (draws r kernel) in
    (x_result, weight_with_kernel y (hid_weight x (ts_val x_result)) x_result kernel).

  (** linear.py:57-86 pre_weight: the location is built from the value of the previous state (line 80). *)
  Definition linear_pre_weight (y : xf) (x : tstate xf) : mat xf :=
    like (ts_val x) (fun i j =>
      let v := m_get (ts_val x) i j in
      let h_scale := snd (mean_scale M (ts_time x) j v) in
      let h_var := xmul h_scale h_scale in
      let a := par_a M j in
      let o_var := xmul (par_s M j) (par_s M j) in
      let cov := xadd o_var (xmul (xmul a h_var) a) in
      normal_logp (xadd (par_b M j) (xmul a v)) (xsqrt cov) y).

  (** proposals/base.py:69-85 pre_weight with pre_weight_funcs.py:9-11 (affine hidden processes). *)
  Definition affine_pre_weight (y : xf) (x : tstate xf) : mat xf :=
    obs_weight y (propagate_from x (like (ts_val x) (fun i j => fst (mean_scale M (ts_time x) j (m_get (ts_val x) i j))))).

  (** The settings of the linearised proposals (linearized.py:20-39). *)
  Record settings : Type := Settings { n_steps : nat; alpha : R; second_order : bool; functorch : bool }.

  (** utils.py:84-96 _model_likelihood and utils.py:183-184: the log density whose mode is sought, for filter [j] at
      time [t]; [x_logp]: log density of the hidden process given the previous state. *)
  Definition objective (t j : nat) (y : xf) (x_logp : xf -> xf) (v : xf) : xf := xadd (obs_logp M t j v y) (x_logp v).

  (** linearized.py:52-70. *)
  Definition linearized (s : settings) (r : nat) (y : xf) (x : tstate xf) : tstate xf * mat xf :=
    let kernel := like (ts_val x) (fun i j =>
      let v := m_get (ts_val x) i j in
      let (mean, std) := mean_scale M (ts_time x) j v in
      let f := objective (S (ts_time x)) j y (hid_logp M (ts_time x) j v) in
      if functorch s
      then find_mode (autodiff f) (autodiff (autodiff f)) (alpha s) (second_order s) (n_steps s) mean std
      else find_mode_legacy (autodiff f) (autodiff (autodiff f)) (alpha s) (second_order s) (n_steps s) mean std) in
    let x_result := propagate_from x (draws r kernel) in
    (x_result, weight_with_kernel y (hid_weight x (ts_val x_result)) x_result kernel).

  (** filters/particle/state.py:59-67 get_predictive_density with [approximate=True]: mean and standard deviation of the propagated
      particles, per filter. *)
  Definition predictive (r : nat) (x : tstate xf) (nw : mat xf) (j : nat) : xf * xf :=
    let v := col (ts_val (hid_propagate r x)) j in
    (filter_mean v (col nw j), xsqrt (filter_variance v (col nw j))).

  (** approximate.py:18-31 GaussianProposal: the result is a copy (line 26), its time index that of the previous
      state. *)
  Definition gaussian (r : nat) (y : xf) (x : tstate xf) (nw : mat xf) : tstate xf * mat xf :=
    let x_vals := draws (S r) (like (ts_val x) (fun _ j => predictive r x nw j)) in
    let x_result := copy_state x x_vals in
    (x_result, obs_weight y x_result).

  (** approximate.py:42-64 GaussianLinearized; again a copy (line 62). *)
  Definition gaussian_linearized (s : settings) (r : nat) (y : xf) (x : tstate xf) (nw : mat xf) : tstate xf * mat xf :=
    let kernel := like (ts_val x) (fun _ j =>
      let v := col (ts_val x) j in
      let (mean, std) := mean_scale M (ts_time x) j (filter_mean v (col nw j)) in
      let std := xsqrt (xadd (filter_variance v (col nw j)) (xmul std std)) in
      let p := predictive r x nw j in
      let f := objective (S (ts_time x)) j y (normal_logp (fst p) (snd p)) in
      find_mode_legacy (autodiff f) (autodiff (autodiff f)) (alpha s) (second_order s) (n_steps s) mean std) in
    let x_result := copy_state x (draws (S r) kernel) in
    (x_result, weight_with_kernel y (kernel_logp (like (ts_val x) (fun _ j => predictive r x nw j)) (ts_val x_result))
                 x_result kernel).

  (** approximate.py:76-101 GaussianLinear. *)
  Definition gaussian_linear (r : nat) (y : xf) (x : tstate xf) (nw : mat xf) : tstate xf * mat xf :=
    let kernel := like (ts_val x) (fun _ j =>
      let v := col (ts_val x) j in
      let (mean, scale) := mean_scale M (ts_time x) j (filter_mean v (col nw j)) in
      let h_var_inv := xinv (xadd (xmul scale scale) (filter_variance v (col nw j))) in
      find_optimal_density (xsub y (par_b M j)) mean h_var_inv (xinv (xmul (par_s M j) (par_s M j))) (par_a M j)) in
    let x_result := propagate_from x (draws r kernel) in
    (x_result, weight_with_kernel y (kernel_logp (like (ts_val x) (fun _ j => predictive (S r) x nw j)) (ts_val x_result))
                 x_result kernel).

  (** nested.py:27-47.  The [num_samples] inner samples of particle [i] of filter [j] are entries [i], [j] of the
      samples drawn at positions [r], ..., [r + num_samples - 1]. *)
  Variable lowest : R.
  Definition nested_sample (r : nat) (x : tstate xf) (k : nat) : tstate xf := propagate_from x (hid_draw M (r + k) x).
  (** nested.py:34: nan_to_num with two arguments, as in pyfilter/utils.py:57. *)
  Definition nested_logp (num_samples r : nat) (y : xf) (x : tstate xf) (i j : nat) : list xf :=
    map (fun k => nan_to_num lowest (m_get (obs_weight y (nested_sample r x k)) i j)) (seq 0 num_samples).
  (** nested.py:35-38. *)
  Definition nested_probs (logp : list xf) : list xf :=
    map (fun p => if xisnan p then xdiv (Fin 1) (Fin (INR (length logp))) else p) (softmax logp).
  (** nested.py:47: [log_prob.exp().mean(dim=0).log()]. *)
  Definition nested_weight (logp : list xf) : xf := xlog (xdiv (xsum (map xexp logp)) (Fin (INR (length logp)))).
  Definition nested (num_samples r : nat) (y : xf) (x : tstate xf) : tstate xf * mat xf :=
    let logp := nested_logp num_samples r y x in
    let best := fun i j => m_get (ts_val (nested_sample r x (pick r i j (nested_probs (logp i j))))) i j in
    (copy_state (nested_sample r x 0) (like (ts_val x) best), like (ts_val x) (fun i j => nested_weight (logp i j))).

  (** The proposal classes with their [sample_and_weight]; the arguments are those of the prediction. *)
  Inductive pclass : Type :=
  | PBootstrap | PLinear | PLinearized (s : settings) | PGaussian | PGaussianLinearized (s : settings) | PGaussianLinear
  | PNested (num_samples : nat).
  Definition sample_weigh (c : pclass) (r : nat) (y : xf) (x : tstate xf) (w nw : mat xf) : tstate xf * mat xf :=
    match c with
    | PBootstrap => bootstrap r y x
    | PLinear => linear r y x
    | PLinearized s => linearized s r y x
    | PGaussian => gaussian r y x nw
    | PGaussianLinearized s => gaussian_linearized s r y x nw
    | PGaussianLinear => gaussian_linear r y x nw
    | PNested n => nested n r y x
    end.
  (** The look-ahead weights: only the linear proposals override base.py. *)
  Definition look_ahead (c : pclass) (y : xf) (x : tstate xf) : mat xf :=
    match c with PLinear | PGaussianLinear => linear_pre_weight y x | _ => affine_pre_weight y x end.
  (** A particle filter over this model with this proposal and a resampling function. *)
  Definition with_proposal (c : pclass) (rs : nat -> bool -> mat xf -> res (mat nat)) : @oracle xf xf :=
    Oracle rs hid_propagate (sample_weigh c) (look_ahead c).
End Proposals.
