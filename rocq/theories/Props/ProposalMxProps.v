(** Properties C63 and C64 for vectors (pyfilter/filters/particle/proposals/linear.py). *)
From Coq Require Import Reals Lra.
From Coq.Logic Require Import ClassicalEpsilon.
From mathcomp Require Import all_ssreflect all_algebra.
From Verif.Spec Require Import RealField LinAlgSpec.
From Verif.Model Require Import Base ProposalMx.
From Verif.Proofs Require Import LinAlgProofs CholeskyProofs.
Set Implicit Arguments.
Unset Strict Implicit.
Unset Printing Implicit Defensive.
Import GRing.Theory.
Local Open Scope ring_scope.

Section Setting.
  Variables (chol : forall n, 'M[R]_n -> 'M[R]_n) (d p : nat).
  Variables (mean scale : 'cV[R]_d) (a : 'M[R]_(p, d)) (b s y : 'cV[R]_p).
  Hypothesis chol_ok : cholesky_ok chol.
  Hypothesis scale_pos : forall i, Rlt 0 (scale i 0).
  Hypothesis s_pos : forall i, Rlt 0 (s i 0).
  (** Covariance of the next observation given the particle. *)
  Let S : 'M[R]_p := diag_sq s + a *m diag_sq scale *m a^T.

  Lemma inv_diag_spd n (v : 'cV[R]_n) : (forall i, Rlt 0 (v i 0)) ->
    exists r : 'rV[R]_n, invmx (diag_sq v) = diag_mx r /\ forall i, Rlt 0 (r 0 i).
  Proof.
    move=> Hv. exists (pow_neg2 v)^T. split; first by rewrite -(proj1 (diag_neg2 Hv)).
    move=> i. rewrite !mxE. apply: Rinv_0_lt_compat. apply: Rmult_lt_0_compat; exact: Hv.
  Qed.

  Let H := invmx (diag_sq scale).
  Let O := invmx (diag_sq s).

  Lemma prec_spd : spd (H + a^T *m O *m a).
  Proof.
    have [r [Er Hr]] := inv_diag_spd s_pos. have [q [Eq Hq]] := inv_diag_spd scale_pos.
    rewrite /H /O Er Eq. apply: spd_add_congr => //. exact: spd_diag.
  Qed.

  Lemma predictive_spd : spd S.
  Proof.
    have Hd n (v : 'cV[R]_n) : (forall i, Rlt 0 (v i 0)) -> forall i, Rlt 0 ((\row_i (v i 0 * v i 0) : 'rV[R]_n) 0 i).
      by move=> Hv i; rewrite mxE; apply: Rmult_lt_0_compat.
    rewrite /S -{1}[a]trmxK. apply: spd_add_congr; last exact: Hd. apply: spd_diag. exact: Hd.
  Qed.

  (** Whatever vector is drawn, the weight is the log density of the observation given the previous particle. *)
  Lemma linear_weight eps : exists x, linear_mx chol mean scale a b s y eps = Ok (x, log_mvn (b + a *m mean) S y).
  Proof.
    have [EO UO] := diag_neg2 s_pos. have [EH UH] := diag_neg2 scale_pos.
    have PS := prec_spd. have PU := spd_unit PS.
    rewrite /linear_mx /find_optimal_density_mx EO EH -/H -/O PU.
    have F := chol_ok (spd_inv PS). set K := invmx (H + _) in F *.
    have -> : (\col_i ((pow_neg2 scale) i 0 * mean i 0)) = H *m mean.
      rewrite /H -EH /construct_diag_from_flat mul_diag_mx. by apply/matrixP => i j; rewrite !mxE !ord1.
    set loc := K *m _. set x := loc + _. exists x. congr (Ok (_, _)).
    rewrite (multivariate_log_mvn _ _ F) !independent_log_mvn //.
    have HT : H^T = H by have [r [E _]] := inv_diag_spd scale_pos; rewrite /H E tr_diag_mx.
    have OT : O^T = O by have [r [E _]] := inv_diag_spd s_pos; rewrite /O E tr_diag_mx.
    have HU : H \in unitmx by rewrite unitmx_inv. have OU : O \in unitmx by rewrite unitmx_inv.
    have ES : S = invmx O + a *m invmx H *m a^T by rewrite /S /O /H !invmxK.
    have Q := complete_square HU OU HT OT PU mean x (y - b). rewrite -/loc -ES in Q.
    have D := predictive_det a HU OU HT OT. rewrite -ES in D. cbv zeta in Q.
    rewrite /log_mvn /K invmxK -/H -/O.
    have E1 : y - (b + a *m x) = y - b - a *m x by rewrite opprD addrA.
    have E2 : y - (b + a *m mean) = y - b - a *m mean by rewrite opprD addrA.
    rewrite E1 E2 -Q. move: Q => _.
    have dS := spd_det predictive_spd. have dP := spd_det PS.
    have [ds _] := factor_det (diag_factor s_pos). have [dh _] := factor_det (diag_factor scale_pos).
    have LD : ln (\det K) = Ropp (ln (\det (H + a^T *m O *m a))).
      rewrite /K det_inv RinvE; last exact: (Rgt_not_eq _ _ dP). exact: ln_Rinv.
    have LS : (ln (\det S) - ln (\det (diag_sq s)) - ln (\det (diag_sq scale)) = ln (\det (H + a^T *m O *m a)))%coqR.
      rewrite -D !RE /O /H !det_inv !RinvE; [|exact: (Rgt_not_eq _ _ dh)|exact: (Rgt_not_eq _ _ ds)].
      have := Rinv_0_lt_compat _ ds. have := Rinv_0_lt_compat _ dh. move=> h1 h2.
      rewrite ln_mult //; last by apply: Rmult_lt_0_compat. rewrite ln_mult // !ln_Rinv //.
      move: (ln (\det S)) (ln (\det (diag_sq s))) (ln (\det (diag_sq scale))) => l1 l2 l3. as_R. lra.
    rewrite -/K LD. move: LS. rewrite !RE.
    move: (ln (\det S)) (ln (\det (diag_sq s))) (ln (\det (diag_sq scale))) (ln (\det (H + a^T *m O *m a))) => l1 l2 l3 l4 Hl.
    move: (qf O _) (qf H _) (qf (H + _) _) => q1 q2 q3. set c := (INR p * _)%coqR. set c' := (INR d * _)%coqR. as_R. lra.
  Qed.
End Setting.

(** C63.  The observation has covariance S = diag(s²) + A diag(g²) Aᵀ given the previous particle; the proposal never
    raises, and the weight does not depend on the draw. *)
Theorem C63_linear_weight_multivariate : forall chol d p (mean scale : 'cV[R]_d) (a : 'M[R]_(p, d)) (b s y : 'cV[R]_p) eps,
  cholesky_ok chol -> (forall i, Rlt 0 (scale i 0)) -> (forall i, Rlt 0 (s i 0)) ->
  exists x, linear_mx chol mean scale a b s y eps =
    Ok (x, log_mvn (b + a *m mean) (diag_sq s + a *m diag_sq scale *m a^T) y).
Proof. by move=> *; exact: linear_weight. Qed.
Print Assumptions C63_linear_weight_multivariate.

(** C64.  The look-ahead weight is the same density with the previous value [x] in place of the mean. *)
Theorem C64_pre_weight_multivariate_partial :
  forall chol d p (x scale : 'cV[R]_d) (a : 'M[R]_(p, d)) (b s y : 'cV[R]_p),
  cholesky_ok chol -> (forall i, Rlt 0 (scale i 0)) -> (forall i, Rlt 0 (s i 0)) ->
  linear_pre_weight_mx chol x scale a b s y = log_mvn (b + a *m x) (diag_sq s + a *m diag_sq scale *m a^T) y.
Proof.
  move=> chol d p x scale a b s y Hc Hh Hs. rewrite /linear_pre_weight_mx.
  have E n (v : 'cV[R]_n) : construct_diag_from_flat (pow_2 v) = diag_sq v.
    rewrite /construct_diag_from_flat /diag_sq. congr (diag_mx _). by apply/rowP => i; rewrite !mxE.
  rewrite !E. apply: multivariate_log_mvn. apply: Hc. exact: predictive_spd.
Qed.
Print Assumptions C64_pre_weight_multivariate_partial.

(** Such factorisations exist. *)
Definition some_cholesky n (A : 'M[R]_n) : 'M[R]_n :=
  match excluded_middle_informative (exists L, factor A L) with
  | left H => proj1_sig (constructive_indefinite_description _ H)
  | right _ => 0
  end.
Example C63_nonvacuous_multivariate : cholesky_ok some_cholesky.
Proof.
  move=> n A HA. rewrite /some_cholesky. case: excluded_middle_informative => [E|[]]; last exact: cholesky_exists.
  by case: (constructive_indefinite_description _ E).
Qed.

(** Two dimensions, one of them observed. *)
Example C63_two_dimensions :
  let scale : 'cV[R]_2 := \col_i (INR i + 1)%coqR in let s : 'cV[R]_1 := const_mx 2%coqR in
  let a : 'M[R]_(1, 2) := delta_mx 0 1 in let mean : 'cV[R]_2 := const_mx 3%coqR in
  let y : 'cV[R]_1 := const_mx 1%coqR in forall eps,
  exists x, linear_mx some_cholesky mean scale a 0 s y eps =
    Ok (x, log_mvn (0 + a *m mean) (diag_sq s + a *m diag_sq scale *m a^T) y).
Proof.
  move=> scale s a mean y eps. apply: C63_linear_weight_multivariate.
  - exact: C63_nonvacuous_multivariate.
  - move=> i. rewrite mxE. have := pos_INR i. lra.
  - move=> i. rewrite mxE. lra.
Qed.
