(** Model of the functions of pyfilter whose result hangs on how shapes are combined: construct_diag_from_flat
    (pyfilter/utils.py), get_filter_mean_and_variance (filters/particle/utils.py), ParticleFilterCorrection.get_covariance
    (filters/particle/state.py), find_optimal_density (filters/particle/proposals/utils.py) and
    LinearGaussianObservations.pre_weight (filters/particle/proposals/linear.py), on tensors of any shape.  The other
    files of the model treat one particle or one column at a time. *)
From Coq Require Import List Arith Bool Reals.
From Verif.Model Require Import Base Shaped.
Import ListNotations.
Local Open Scope nat_scope.

(** pyfilter/utils.py:23-46 construct_diag_from_flat; [ev]: the event shape ([numel] of an empty shape is 1). *)
Definition construct_diag (x : ten) (ev : list nat) : res ten :=
  match ev with
  | [] => tmul (eye 1) (view11 x)
  | [d] => tmul (eye d) (unsqueeze1 x)
  | _ => Raise AssertionError
  end.

(** filters/particle/utils.py:26-65 get_filter_mean_and_variance; [ev]: the event shape of the state, [values]: its value.
    [keep_dim] only takes a last dimension of size 1 out of the results (lines 57-58 and 63-64).  The einsum of line 61
    multiplies and sums over the first dimension. *)
Definition mean_and_variance (ev : list nat) (values weights : ten) (covariance keep_dim : bool) : res (ten * ten) :=
  let values := match ev with [] => unsqueeze1 values | _ => values end in
  let weights := unsqueeze1 weights in
  let! wx := tmul weights values in
  let mean := sum0 wx in
  let! centered := tsub values mean in
  let! var :=
    (if negb covariance || match ev with [] => true | _ => false end
     then let! sq := tmul weights (lift1 (fun c => c ^ 2)%R centered) in
          let var := sum0 sq in
          Ok (if keep_dim then var else squeeze1 var)
     else let! row := unsqueeze2 centered in
          let! covariances := tmatmul (unsqueeze1 centered) row in
          let! weighted := tmul (view11 (squeeze1 weights)) covariances in
          Ok (sum0 weighted)) in
  Ok (if keep_dim then mean else squeeze1 mean, var).

(** filters/particle/state.py:118-137 ParticleFilterCorrection.get_covariance; [w]: the result of normalized_weights(), [x]:
    the value of the state, [var]: what get_variance() returns. *)
Definition get_covariance (ev : list nat) (w x var : ten) : res ten :=
  match ev with
  | [] => Ok var
  | _ =>
      let! wx := tmul w x in
      let mean := sum0 wx in
      let! centralized := tsub x mean in
      let! row := unsqueeze2 centralized in
      let! outer := tmatmul (unsqueeze1 centralized) row in
      let! weighted_covariance := tmul (view11 w) outer in
      Ok (sum0 weighted_covariance)
  end.

(** The distributions built by the two functions below: torch's Normal, and MultivariateNormal before the Cholesky
    factor of its covariance is taken. *)
Inductive kernel : Type := KNormal (loc scale : ten) | KMultivariate (loc cov : ten).

(** torch's [Normal(loc, scale)] broadcasts its two arguments. *)
Definition make_normal (loc scale : ten) : res kernel :=
  let! s := bshape (shp loc) (shp scale) in
  Ok (KNormal (Ten s (fun i => entry loc (bidx (shp loc) i))) (Ten s (fun i => entry scale (bidx (shp scale) i)))).

(** torch's [MultivariateNormal(loc, scale_tril=l)] broadcasts the dimensions before the last of its location with those
    before the last two of [l]; the last of [loc] must be that of the matrix.  [cov] stands for [l]. *)
Definition make_mvn (loc cov : ten) : res kernel :=
  match shp loc, shp cov with
  | d :: a, d' :: d'' :: b =>
      let! s := bshape a b in
      if (d =? d') && (d' =? d'')
      then Ok (KMultivariate (Ten (d :: s) (fun i => match i with j :: r => entry loc (j :: bidx a r) | [] => 0%R end))
                             (Ten (d' :: d'' :: s) (fun i => match i with j :: k :: r => entry cov (j :: k :: bidx b r) | _ => 0%R end)))
      else Raise RuntimeError
  | _, _ => Raise ValueError
  end.

(** filters/particle/proposals/linear.py:57-84 LinearGaussianObservations.pre_weight up to the kernel whose log density at
    [y] it returns; [hev], [oev]: event shapes of the hidden process and of the model, [h_scale]: second result of
    mean_scale, [a], [offset], [s]: the parameters, [x]: the value of the state. *)
Definition linear_pre_kernel (hev oev : list nat) (h_scale a offset s x : ten) : res kernel :=
  let h_var := lift1 (fun v => v ^ 2)%R h_scale in
  let o_var := lift1 (fun v => v ^ 2)%R s in
  let a := match hev with [] => unsqueeze1 a | _ => a end in
  let obs_is_1d := match oev with [] => true | _ => false end in
  let! a_unsqueezed := (if obs_is_1d then unsqueeze2 a else Ok a) in
  let! a_transposed := transpose21 a_unsqueezed in
  let! diag_h_var := construct_diag h_var hev in
  let! diag_o_var := construct_diag o_var oev in
  let! ah := tmatmul a_unsqueezed diag_h_var in
  let! aha := tmatmul ah a_transposed in
  let! cov := tadd diag_o_var aha in
  if obs_is_1d then
    let! ax := tmul (squeeze1 a) x in
    let! o_loc := tadd offset ax in
    let! v := corner cov in
    make_normal o_loc (lift1 sqrt v)
  else
    let! ax := tmatmul a_unsqueezed (unsqueeze1 x) in
    let! o_loc := tadd offset (squeeze1 ax) in
    make_mvn o_loc cov.

(** filters/particle/proposals/utils.py:219-267 find_optimal_density; [hev], [oev] as above, [inverse]: torch's inverse of
    the matrices of the last two dimensions. *)
Definition optimal_kernel (inverse : ten -> res ten) (hev oev : list nat) (y loc h_var_inv o_var_inv c : ten) : res kernel :=
  let hidden_is_1d := match hev with [] => true | _ => false end in
  let obs_is_1d := match oev with [] => true | _ => false end in
  let c := if hidden_is_1d then unsqueeze1 c else c in
  let! c_unsqueezed := (if obs_is_1d then unsqueeze2 c else Ok c) in
  let! c_transposed := transpose21 c_unsqueezed in
  let! o_inv_cov := construct_diag o_var_inv oev in
  let! co := tmatmul c_transposed o_inv_cov in
  let! t_2 := tmatmul co c_unsqueezed in
  let! d := construct_diag h_var_inv hev in
  let! precision := tadd d t_2 in
  let! cov := inverse precision in
  let! t_1 := tmul h_var_inv loc in
  let t_1 := if hidden_is_1d then unsqueeze1 t_1 else t_1 in
  let! t_2 := (if obs_is_1d then tmul (squeeze1 o_inv_cov) (unsqueeze1 y) else tmatmul o_inv_cov y) in
  let! t_3 := tmatmul c_transposed (unsqueeze1 t_2) in
  let! t_4 := tadd (unsqueeze1 t_1) t_3 in
  let! mean := tmatmul cov t_4 in
  let mean := squeeze1 mean in
  if hidden_is_1d then
    let! v := corner cov in
    make_normal (squeeze1 mean) (lift1 sqrt v)
  else make_mvn mean cov.

(** torch's [t.inverse()] of the matrices of the last two dimensions; [inv n m]: the inverse of the [n] by [n] matrix [m].
    Singular matrices, for which torch raises, are out. *)
Definition tinverse (inv : nat -> (nat -> nat -> R) -> nat -> nat -> R) (t : ten) : res ten :=
  match shp t with
  | n :: m :: s =>
      if n =? m
      then Ok (Ten (n :: n :: s) (fun i => match i with j :: k :: r => inv n (fun p q => entry t (q :: p :: r)) k j | _ => 0%R end))
      else Raise RuntimeError
  | _ => Raise RuntimeError
  end.

(** filters/particle/proposals/linear.py:38-52 LinearGaussianObservations.sample_and_weight up to the kernel it draws from;
    [mean], [scale]: result of mean_scale, [a], [offset], [s]: the parameters. *)
Definition linear_kernel (inv : nat -> (nat -> nat -> R) -> nat -> nat -> R) (hev oev : list nat) (y mean scale a offset s : ten) : res kernel :=
  let h_var_inv := lift1 (fun v => / v ^ 2)%R scale in
  let o_var_inv := lift1 (fun v => / v ^ 2)%R s in
  let! demeaned := tsub y offset in
  optimal_kernel (tinverse inv) hev oev demeaned mean h_var_inv o_var_inv a.
