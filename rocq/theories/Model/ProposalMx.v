(** Model of LinearGaussianObservations (proposals/linear.py) and find_optimal_density (proposals/utils.py:219-267) for
    a hidden process of dimension [d] and observations of dimension [p] (both vectors).  The functions work on every
    particle alike, so one particle is modelled; numbers are reals, so infinite and NaN entries and rounding are out.
    The parameters are those of one filter, without batch dimension (batched parameters, and line 260 multiplying a matrix by
    a batch of rows, are modelled in ShapedCode.v). *)
From Coq Require Import Reals.
From mathcomp Require Import all_ssreflect all_algebra.
From Verif.Model Require Import Base.
From Verif.Spec Require Import RealField.
Set Implicit Arguments.
Unset Strict Implicit.
Unset Printing Implicit Defensive.
Local Open Scope ring_scope.

(** torch's Normal.log_prob. *)
Definition rnormal_logp (loc scale v : R) : R :=
  (- ((v - loc) * (v - loc)) / (2 * (scale * scale)) - ln scale - ln (sqrt (2 * PI)))%coqR.

Section Mx.
  (** [chol]: [cholesky_ex(.)[0]]. *)
  Variable chol : forall n, 'M[R]_n -> 'M[R]_n.

  (** pyfilter/utils.py:23-46 construct_diag_from_flat for a vector. *)
  Definition construct_diag_from_flat n (x : 'cV[R]_n) : 'M[R]_n := diag_mx x^T.

  (** torch's Independent(Normal(loc, scale), 1).log_prob. *)
  Definition independent_logp n (loc scale v : 'cV[R]_n) : R := \sum_i rnormal_logp (loc i 0) (scale i 0) (v i 0).
  (** torch's MultivariateNormal(loc, scale_tril=l).log_prob: the Mahalanobis distance by a triangular solve. *)
  Definition multivariate_logp n (loc : 'cV[R]_n) (l : 'M[R]_n) (v : 'cV[R]_n) : R :=
    let z := invmx l *m (v - loc) in
    let half_log_det := \sum_i ln (l i i) in
    (- (1 / 2) * (INR n * ln (2 * PI) + \sum_i (z i 0%R * z i 0%R)%coqR) - half_log_det)%coqR.

  Section Dims.
    Variables d p : nat.

    (** [t.pow(-2.0)], [t.pow(2.0)]. *)
    Definition pow_neg2 n (x : 'cV[R]_n) : 'cV[R]_n := \col_i (/ (x i 0%R * x i 0%R))%coqR.
    Definition pow_2 n (x : 'cV[R]_n) : 'cV[R]_n := \col_i (x i 0%R * x i 0%R)%coqR.

    (** utils.py:219-267 find_optimal_density: location and lower triangular scale; [inverse] raises on a singular matrix. *)
    Definition find_optimal_density_mx (y : 'cV[R]_p) (loc h_var_inv : 'cV[R]_d) (o_var_inv : 'cV[R]_p) (c : 'M[R]_(p, d))
      : res ('cV[R]_d * 'M[R]_d) :=
      let c_transposed := c^T in
      let o_inv_cov := construct_diag_from_flat o_var_inv in
      let t_2 := c_transposed *m o_inv_cov *m c in
      let precision := construct_diag_from_flat h_var_inv + t_2 in
      if precision \in unitmx then
        let cov := invmx precision in
        let t_1 := \col_i (h_var_inv i 0 * loc i 0) in
        let t_3 := c_transposed *m (o_inv_cov *m y) in
        Ok (cov *m (t_1 + t_3), chol cov)
      else Raise RuntimeError.

    (** linear.py:38-55 sample_and_weight of a particle whose hidden process has mean [mean] and scale [scale]; [a], [b],
        [s]: the parameters of the model, which observes [Normal(b + a x, s)]; [eps]: standard normal vector.  base.py:45-50
        _weight_with_kernel. *)
    Definition linear_mx (mean scale : 'cV[R]_d) (a : 'M[R]_(p, d)) (b s : 'cV[R]_p) (y : 'cV[R]_p) (eps : 'cV[R]_d)
      : res ('cV[R]_d * R) :=
      match find_optimal_density_mx (y - b) mean (pow_neg2 scale) (pow_neg2 s) a with
      | Raise e => Raise e
      | Ok (loc, l) =>
          let x := loc + l *m eps in
          let y_log_prob := independent_logp (b + a *m x) s y in
          Ok (x, (y_log_prob + independent_logp mean scale x - multivariate_logp loc l x)%coqR)
      end.

    (** linear.py:57-86 pre_weight of a particle with value [x]. *)
    Definition linear_pre_weight_mx (x scale : 'cV[R]_d) (a : 'M[R]_(p, d)) (b s : 'cV[R]_p) (y : 'cV[R]_p) : R :=
      let diag_h_var := construct_diag_from_flat (pow_2 scale) in
      let diag_o_var := construct_diag_from_flat (pow_2 s) in
      let cov := diag_o_var + a *m diag_h_var *m a^T in
      multivariate_logp (b + a *m x) (chol cov) y.
  End Dims.
End Mx.
