(** Properties C27, C63 (one dimension), C64, C65, C66 (pyfilter/filters/particle/proposals). *)
From Coq Require Import Reals List Bool Arith Lia Lra.
From Verif.Model Require Import Base Xf Tensor Weights Particle Mode Proposal.
From Verif.Spec Require Import WeightsSpec ProposalSpec.
From Verif.Proofs Require Import WeightsProofs ProposalProofs.
Import ListNotations.
Local Open Scope R_scope.

(** A model used in the examples: x' = x / 2 + noise, y = x + noise. *)
Definition halving : ssm := SSM
  (fun _ _ x => (xmul (Fin (/ 2)) x, Fin 1)) (fun _ _ x v => normal_logp (xmul (Fin (/ 2)) x) (Fin 1) v)
  (fun _ x => ts_val x) (fun _ _ x y => normal_logp x (Fin 1) y) (fun _ => Fin 1) (fun _ => Fin 0) (fun _ => Fin 1).
Definition single {A} (v : A) : mat A := Mat 1 1 (fun _ _ => v).

(** * C27 *)

(** The proposals that advance. *)
Definition advancing (c : pclass) : bool := match c with PGaussian | PGaussianLinearized _ => false | _ => true end.

Lemma correct_time lowest o k r y (s : corr xf) p s' (dt : nat) :
  (forall r y x w nw, ts_time (fst (sample_and_weight (X := xf) (Y := xf) o r y x w nw)) = (dt + ts_time x)%nat) ->
  predict lowest o k r s = Ok p -> correct lowest o k r y p = Ok s' ->
  ts_time (c_x s') = (dt + ts_time (c_x s))%nat.
Proof.
  intros Ho Hp Hc.
  assert (Et : ts_time (p_x p) = ts_time (c_x s)).
  { destruct k; cbn [predict] in Hp.
    - unfold sisr_predict in Hp. destruct (normalize_mat _ _) as [[nw w]|]; [|discriminate]. cbn [bind] in Hp.
      destruct (negb _); [injection Hp as <-; reflexivity|].
      destruct (resampler _ _ _ _) as [sub|]; [|discriminate]. cbn [bind] in Hp.
      destruct (masked_scatter (c_inds s) _ _) as [inds|]; [|discriminate]. cbn [bind] in Hp.
      destruct (index_cols _ _ _) as [temp|]; [|discriminate]. cbn [bind] in Hp.
      destruct (masked_scatter _ _ _) as [vals|]; [|discriminate]. injection Hp as <-. reflexivity.
    - unfold apf_predict in Hp. destruct (normalize_mat _ _) as [[nw w]|]; [|discriminate]. injection Hp as <-. reflexivity.
    - unfold gpf_predict in Hp. destruct (normalize_mat _ _) as [[nw w]|]; [|discriminate]. injection Hp as <-. reflexivity. }
  rewrite <- Et. destruct k; cbn [correct] in Hc.
  - unfold sisr_correct in Hc. pose proof (Ho r y (p_x p) (p_w p) (p_nw p)) as H. destruct (sample_and_weight _ _ _ _ _ _) as [x wt].
    destruct (loglik_mat _ _) as [ll|]; [|discriminate]. cbn [bind] in Hc. unfold mk_corr in Hc.
    destruct (normalize_mat _ _) as [[nw w]|]; [|discriminate]. injection Hc as <-. exact H.
  - unfold apf_correct in Hc. destruct (resampler _ _ _ _) as [inds|]; [|discriminate]. cbn [bind] in Hc.
    destruct (batched_gather (ts_val (p_x p)) inds) as [vals|]; [|discriminate]. cbn [bind] in Hc.
    match type of Hc with context [sample_and_weight ?o ?r ?y ?x ?w ?nw] => pose proof (Ho r y x w nw) as H end.
    destruct (sample_and_weight _ _ _ _ _ _) as [x wt].
    destruct (batched_gather _ inds) as [g|]; [|discriminate]. cbn [bind] in Hc.
    destruct (loglik_mat _ _) as [ll|]; [|discriminate]. cbn [bind] in Hc. unfold mk_corr in Hc.
    destruct (normalize_mat _ _) as [[nw w]|]; [|discriminate]. injection Hc as <-. exact H.
  - unfold gpf_correct in Hc. pose proof (Ho r y (p_x p) (p_w p) (p_nw p)) as H. destruct (sample_and_weight _ _ _ _ _ _) as [x wt].
    destruct (loglik_mat _ _) as [ll|]; [|discriminate]. cbn [bind] in Hc. unfold mk_corr in Hc.
    destruct (normalize_mat _ _) as [[nw w]|]; [|discriminate]. injection Hc as <-. exact H.
Qed.

(** Filtering one observation advances the time index by one, for every filter and all proposals but two. *)
Theorem C27_advances_partial : forall lowest M normals autodiff pick c rs k r y s p s',
  advancing c = true ->
  predict lowest (with_proposal M normals autodiff pick lowest c rs) k r s = Ok p ->
  correct lowest (with_proposal M normals autodiff pick lowest c rs) k r y p = Ok s' ->
  ts_time (c_x s') = S (ts_time (c_x s)).
Proof.
  intros lowest M normals autodiff pick c rs k r y s p s' Hc Hp Hs.
  apply (correct_time lowest _ k r y s p s' 1) with (2 := Hp) (3 := Hs).
  intros r0 y0 x w nw. destruct c; try discriminate; reflexivity.
Qed.
Print Assumptions C27_advances_partial.

(** The two Gaussian proposals never advance it. *)
Theorem C27_gaussian_stays_refuted : forall lowest M normals autodiff pick c rs k r y s p s',
  advancing c = false ->
  predict lowest (with_proposal M normals autodiff pick lowest c rs) k r s = Ok p ->
  correct lowest (with_proposal M normals autodiff pick lowest c rs) k r y p = Ok s' ->
  ts_time (c_x s') = ts_time (c_x s).
Proof.
  intros lowest M normals autodiff pick c rs k r y s p s' Hc Hp Hs.
  apply (correct_time lowest _ k r y s p s' 0) with (2 := Hp) (3 := Hs).
  intros r0 y0 x w nw. destruct c; try discriminate; reflexivity.
Qed.
Print Assumptions C27_gaussian_stays_refuted.

(** Both happen: one observation filtered by GPF with its default proposal, and by SISR with the bootstrap proposal. *)
Example C27_nonvacuous : forall normals autodiff pick,
  let start := Corr (TS 4 (single (Fin 1))) (single (Fin 0)) (fun _ => Fin 0) (single 0%nat) in
  let o c := with_proposal halving normals autodiff pick (-100) c (fun _ _ w => Ok (arange (m_rows w) (m_cols w))) in
  (exists p s, predict (-100) (o PGaussian) GPF 0 start = Ok p /\ correct (-100) (o PGaussian) GPF 0 (Fin 1) p = Ok s /\
     ts_time (c_x s) = 4%nat) /\
  (exists p s, predict (-100) (o PBootstrap) GPF 0 start = Ok p /\ correct (-100) (o PBootstrap) GPF 0 (Fin 1) p = Ok s /\
     ts_time (c_x s) = 5%nat).
Proof. intros. split; do 2 eexists; (split; [reflexivity|]); (split; reflexivity). Qed.

(** * C63, one dimension *)

(** Whatever particle is drawn, the weight is the log of the predictive density of the observation. *)
Theorem C63_linear_weight : forall M normals f g a b s r y (x : tstate xf) i j v,
  normal_hidden M f g -> linear_observations M a b s ->
  (i < m_rows (ts_val x))%nat -> (j < m_cols (ts_val x))%nat -> m_get (ts_val x) i j = Fin v ->
  let t := ts_time x in
  m_get (snd (linear M normals r (Fin y) x)) i j
  = Fin (ln (predictive_density (a j) (b j) (s j) (f t j v) (g t j v) y)).
Proof.
  intros M normals f g a b s r y x i j v Hh Ho Hi Hj Hv t.
  destruct (Hh t j v) as (Hg & Hms & Hlp). destruct (Ho j) as (Hs & Ha & Hb & Hps & Hol).
  unfold linear, weight_with_kernel, kernel_logp, obs_weight, hid_weight, draws, linear_kernel, like, propagate_from, zip_mat.
  cbn [snd fst m_get m_rows m_cols ts_val ts_time]. fold t. rewrite Hv, Hms, Ha, Hb, Hps. cbn [xsub xadd xopp xmul].
  rewrite find_optimal_density_fin by assumption. unfold normal_draw. cbn [fst snd xmul xadd].
  set (cov := / (/ (g t j v * g t j v) + a j * / (s j * s j) * a j)).
  set (loc := cov * _). set (x' := loc + sqrt cov * normals r i j).
  rewrite Hol, Hlp. rewrite normal_logp_gauss by (apply sqrt_lt_R0; now apply cov_pos). cbn [xadd xsub xopp]. f_equal.
  unfold predictive_density.
  pose proof (conjugate_weight (a j) (s j) (g t j v) (f t j v) (y - b j) Hs Hg (b j) x') as E. fold cov in E.
  replace (y - b j + b j) with y in E by ring. rewrite <- E. unfold loc. unfold Rminus. reflexivity.
Qed.
Print Assumptions C63_linear_weight.

(** In particular two different draws get the same weight. *)
Corollary C63_independent_of_draw : forall M normals normals' f g a b s r r' y (x : tstate xf) i j v,
  normal_hidden M f g -> linear_observations M a b s ->
  (i < m_rows (ts_val x))%nat -> (j < m_cols (ts_val x))%nat -> m_get (ts_val x) i j = Fin v ->
  m_get (snd (linear M normals r (Fin y) x)) i j = m_get (snd (linear M normals' r' (Fin y) x)) i j.
Proof.
  intros M normals normals' f g a b s r r' y x i j v Hh Ho Hi Hj Hv.
  rewrite (C63_linear_weight M normals f g a b s r y x i j v), (C63_linear_weight M normals' f g a b s r' y x i j v); auto.
Qed.
Print Assumptions C63_independent_of_draw.

Example C63_nonvacuous : normal_hidden halving (fun _ _ x => / 2 * x) (fun _ _ _ => 1) /\
  linear_observations halving (fun _ => 1) (fun _ => 0) (fun _ => 1).
Proof.
  split.
  - intros t j x. split; [lra|]. split; [reflexivity|]. intros v. cbn [hid_logp halving xmul]. now apply normal_logp_gauss, Rlt_0_1.
  - intros j. split; [lra|]. do 3 (split; [reflexivity|]). intros t x y. cbn [obs_logp halving].
    rewrite normal_logp_gauss by lra. do 3 f_equal. lra.
Qed.

(** * C64 *)

(** The look-ahead weight is the predictive density of a random walk: the mean of the hidden process is replaced by
    the previous value. *)
Theorem C64_pre_weight_partial : forall M f g a b s y (x : tstate xf) i j v,
  normal_hidden M f g -> linear_observations M a b s ->
  (i < m_rows (ts_val x))%nat -> (j < m_cols (ts_val x))%nat -> m_get (ts_val x) i j = Fin v ->
  let t := ts_time x in
  m_get (linear_pre_weight M (Fin y) x) i j = Fin (ln (predictive_density (a j) (b j) (s j) v (g t j v) y)) /\
  (f t j v = v -> m_get (linear_pre_weight M (Fin y) x) i j
                  = Fin (ln (predictive_density (a j) (b j) (s j) (f t j v) (g t j v) y))).
Proof.
  intros M f g a b s y x i j v Hh Ho Hi Hj Hv t.
  destruct (Hh t j v) as (Hg & Hms & Hlp). destruct (Ho j) as (Hs & Ha & Hb & Hps & Hol).
  assert (E : m_get (linear_pre_weight M (Fin y) x) i j = Fin (ln (predictive_density (a j) (b j) (s j) v (g t j v) y))).
  { unfold linear_pre_weight, like. cbn [m_get]. fold t. rewrite Hv, Hms, Ha, Hb, Hps. cbn [snd xmul xadd].
    assert (0 <= a j * a j) by nra. assert (0 < s j * s j) by nra. assert (0 < g t j v * g t j v) by nra.
    assert (Hp : 0 < s j * s j + a j * (g t j v * g t j v) * a j) by nra.
    rewrite xsqrt_pos by lra. rewrite normal_logp_gauss by now apply sqrt_lt_R0. unfold predictive_density. f_equal. f_equal.
    f_equal; [ring|f_equal; ring]. }
  split; [exact E|]. intros Hf. now rewrite Hf.
Qed.
Print Assumptions C64_pre_weight_partial.

(** For a mean-reverting model it is another number. *)
Theorem C64_pre_weight_refuted : exists M f g a b s y (x : tstate xf) v,
  normal_hidden M f g /\ linear_observations M a b s /\ m_get (ts_val x) 0 0 = Fin v /\
  m_get (linear_pre_weight M (Fin y) x) 0 0
  <> Fin (ln (predictive_density (a 0%nat) (b 0%nat) (s 0%nat) (f 0%nat 0%nat v) (g 0%nat 0%nat v) y)).
Proof.
  exists halving, (fun _ _ x => / 2 * x), (fun _ _ _ => 1), (fun _ => 1), (fun _ => 0), (fun _ => 1), 0, (TS 0 (single (Fin 2))), 2.
  destruct C63_nonvacuous as [Hh Ho]. do 2 (split; [assumption|]). split; [reflexivity|].
  destruct (C64_pre_weight_partial halving _ _ _ _ _ 0 (TS 0 (single (Fin 2))) 0 0 2 Hh Ho) as [E _]; try (cbn; lia); [reflexivity|].
  cbv zeta in E. rewrite E. intros H. injection H as H. unfold predictive_density in H.
  assert (Hp : 0 < sqrt (1 * 1 + 1 * 1 * (1 * 1))) by (apply sqrt_lt_R0; lra).
  rewrite !ln_gauss in H by exact Hp. rewrite sqrt_sqrt in H by lra. lra.
Qed.
Print Assumptions C64_pre_weight_refuted.

(** * C65 *)

(** With the default settings (no second order information, functorch) the location does not depend on the
    observation or its density: the step size itself is added at every step. *)
Theorem C65_gradient_refuted : forall M normals autodiff (s : settings) r y (x : tstate xf) i j m sd,
  second_order s = false -> functorch s = true ->
  (i < m_rows (ts_val x))%nat -> (j < m_cols (ts_val x))%nat ->
  mean_scale M (ts_time x) j (m_get (ts_val x) i j) = (Fin m, Fin sd) ->
  m_get (ts_val (fst (linearized M normals autodiff s r y x))) i j
  = Fin (m + INR (n_steps s) * alpha s + sd * normals r i j).
Proof.
  intros M normals autodiff s r y x i j m sd Hs Hf Hi Hj Hms.
  unfold linearized, like, draws, propagate_from. cbn [fst ts_val m_get m_rows m_cols]. rewrite Hms, Hs, Hf, find_mode_first_order. reflexivity.
Qed.
Print Assumptions C65_gradient_refuted.

(** So it can move against the gradient, away from the mode. *)
Theorem C65_wrong_way_refuted : exists (f f' f'' : R -> R) grad hess, exact_derivatives grad hess f f' f'' /\
  forall std, exists x', find_mode grad hess (1 / 10000) false 1 (Fin 1) std = (Fin x', std) /\ f x' < f 1 /\ (x' - 1) * f' 1 < 0.
Proof.
  exists (fun x => - (x * x) / 2), (fun x => - x), (fun _ => -1).
  exists (fun x => match x with Fin r => Fin (- r) | _ => NaN end), (fun x => match x with Fin r => Fin (-1) | _ => NaN end).
  split.
  - intros x. split; [|split; [|split; reflexivity]].
    + replace (- x) with (- / 2 * (1 * x + x * 1)) by field.
      apply (derivable_pt_lim_ext (mult_real_fct (- / 2) (id * id)%F)); [intros z; unfold mult_real_fct, mult_fct, id; lra|].
      apply derivable_pt_lim_scal. apply derivable_pt_lim_mult; apply derivable_pt_lim_id.
    + replace (-1) with (- (1)) by lra.
      apply (derivable_pt_lim_ext (- id)%F); [intros z; reflexivity|]. apply derivable_pt_lim_opp, derivable_pt_lim_id.
  - intros std. exists (1 + INR 1 * (1 / 10000)). split; [apply find_mode_first_order|]. cbn. split; lra.
Qed.
Print Assumptions C65_wrong_way_refuted.

(** The legacy finder without second order information takes gradient steps. *)
Theorem C65_legacy_gradient_partial : forall grad hess (f f' f'' : R -> R) alpha n x std sd,
  exact_derivatives grad hess f f' f'' -> std = Fin sd ->
  find_mode_legacy grad hess alpha false n (Fin x) std = (Fin (Nat.iter n (fun x => x + alpha * f' x) x), std).
Proof.
  intros grad hess f f' f'' alpha n x std sd He ->. unfold find_mode_legacy.
  assert (E : Nat.iter n (legacy_step grad hess alpha false) (Fin x, Fin sd) = (Fin (Nat.iter n (fun x => x + alpha * f' x) x), Fin sd)).
  { induction n as [|n IH]; [reflexivity|]. change (Nat.iter (S n) ?f ?a) with (f (Nat.iter n f a)). rewrite IH.
    destruct (He (Nat.iter n (fun x => x + alpha * f' x) x)) as (_ & _ & Hg & _). now rewrite (legacy_gradient _ _ _ _ _ _ Hg). }
  rewrite E. reflexivity.
Qed.
Print Assumptions C65_legacy_gradient_partial.

(** With second order information both finders move along the gradient, scaled by the curvature, and report the
    inverse curvature as variance. *)
Theorem C65_second_order_step_partial : forall grad hess (f f' f'' : R -> R) alpha x std,
  exact_derivatives grad hess f f' f'' -> f'' x <> 0 ->
  let out := (Fin (x + f' x / Rabs (f'' x)), Fin (sqrt (/ Rabs (f'' x)))) in
  find_mode grad hess alpha true 1 (Fin x) std = out /\ find_mode_legacy grad hess alpha true 1 (Fin x) std = out.
Proof.
  intros grad hess f f' f'' alpha x std He Hn out. destruct (He x) as (_ & _ & Hg & Hh). split.
  - now apply find_mode_newton.
  - unfold find_mode_legacy. cbn [Nat.iter nat_rect]. rewrite (legacy_newton _ _ _ _ _ _ _ Hg Hh Hn). reflexivity.
Qed.
Print Assumptions C65_second_order_step_partial.

(** On a concave quadratic one or more steps reach the mode, which maximises it, with the variance of the matching
    normal distribution. *)
Theorem C65_quadratic_mode : forall grad hess c k m alpha n x std,
  0 < k -> let f := fun x => c - k * ((x - m) * (x - m)) / 2 in
  exact_derivatives grad hess f (fun x => - k * (x - m)) (fun _ => - k) ->
  find_mode grad hess alpha true (S n) (Fin x) std = (Fin m, Fin (sqrt (/ k))) /\
  find_mode_legacy grad hess alpha true (S n) (Fin x) std = (Fin m, Fin (sqrt (/ k))) /\
  (forall z, f z <= f m) /\ forall z, exp (f z - f m) = exp (- ((z - m) * (z - m)) / (2 * (sqrt (/ k) * sqrt (/ k)))).
Proof.
  intros grad hess c k m alpha n x std Hk f He.
  assert (Hn : - k <> 0) by lra. assert (Ha : Rabs (- k) = k) by (rewrite Rabs_Ropp; apply Rabs_right; lra).
  assert (Hstep : forall z, z + - k * (z - m) / k = m) by (intros z; field; lra).
  assert (H1 : find_mode grad hess alpha true (S n) (Fin x) std = (Fin m, Fin (sqrt (/ k)))).
  { unfold find_mode. induction n as [|n IH].
    - destruct (He x) as (_ & _ & Hg & Hh). cbn [Nat.iter nat_rect]. rewrite (find_mode_newton _ _ _ _ _ _ _ Hg Hh Hn), Ha, Hstep. reflexivity.
    - change (Nat.iter (S (S n)) ?f ?a) with (f (Nat.iter (S n) f a)). rewrite IH.
      destruct (He m) as (_ & _ & Hg & Hh). rewrite (find_mode_newton _ _ _ _ _ _ _ Hg Hh Hn), Ha, Hstep. reflexivity. }
  assert (H2 : Nat.iter (S n) (legacy_step grad hess alpha true) (Fin x, std) = (Fin m, Fin (sqrt (/ k)))).
  { clear H1. induction n as [|n IH].
    - destruct (He x) as (_ & _ & Hg & Hh). cbn [Nat.iter nat_rect]. rewrite (legacy_newton _ _ _ _ _ _ _ Hg Hh Hn), Ha, Hstep. reflexivity.
    - change (Nat.iter (S (S n)) ?f ?a) with (f (Nat.iter (S n) f a)). rewrite IH.
      destruct (He m) as (_ & _ & Hg & Hh). rewrite (legacy_newton _ _ _ _ _ _ _ Hg Hh Hn), Ha, Hstep. reflexivity. }
  split; [exact H1|]. split; [unfold find_mode_legacy; rewrite H2; reflexivity|]. unfold f. split.
  - intros z. assert (0 <= k * ((z - m) * (z - m))) by (apply Rmult_le_pos; [lra|apply Rle_0_sqr]).
    replace (m - m) with 0 by ring. lra.
  - intros z. f_equal. rewrite sqrt_sqrt by (left; now apply Rinv_0_lt_compat). field. lra.
Qed.
Print Assumptions C65_quadratic_mode.

(** The legacy finder always returns a proper normal distribution, in one and in several dimensions. *)
Theorem C65_legacy_variance_positive : forall grad hess alpha second n m s,
  (forall x, not_infinite (hess (Fin x))) -> proper (m, s) -> proper (find_mode_legacy grad hess alpha second n m s).
Proof. exact legacy_proper. Qed.
Print Assumptions C65_legacy_variance_positive.

Theorem C65_legacy_variance_positive_vector : forall grad hess alpha second obs_vector d n m s,
  finite_hessian grad hess d -> length m = d -> length s = d -> Forall proper (combine m s) ->
  Forall proper (find_mode_legacy_vector grad hess alpha second obs_vector n m s).
Proof. intros. eapply legacy_vector_proper; eassumption. Qed.
Print Assumptions C65_legacy_variance_positive_vector.

(** The default finder does not: without curvature the location is infinite and the deviation NaN, and an indefinite
    Hessian in two dimensions gives a negative variance. *)
Theorem C65_variance_refuted :
  (exists (f f' f'' : R -> R) grad hess, exact_derivatives grad hess f f' f'' /\
     forall alpha x std, find_mode grad hess alpha true 1 (Fin x) std = (NInf, NaN)) /\
  (exists v, find_mode_cov_diag [1; -1] = [v; 1] /\ v < 0).
Proof.
  split.
  - exists (fun x => x), (fun _ => 1), (fun _ => 0).
    exists (fun x => match x with Fin _ => Fin 1 | _ => NaN end), (fun x => match x with Fin r => Fin 0 | _ => NaN end). split.
    + intros x. split; [apply derivable_pt_lim_id|]. split; [apply (derivable_pt_lim_const 1)|]. split; reflexivity.
    + intros alpha x std. cbn [find_mode Nat.iter nat_rect find_mode_step]. rewrite clip0_two.
      replace (Rmax (2 * 0) 0) with 0 by (rewrite Rmult_0_r; symmetry; apply Rmax_left; lra).
      cbn [xsub xadd xopp]. replace (0 + - 0) with 0 by lra. unfold xinv, xdiv. destruct (Req_EM_T 0 0); [|lra].
      rewrite rsign_pos by lra. cbn [xopp xsqrt xmul]. unfold inf_times. rewrite rsign_pos by lra. reflexivity.
  - exists (-1). split; [|lra]. unfold find_mode_cov_diag. cbn [fold_left map].
    replace (Rmin 1 (-1)) with (-1) by (symmetry; apply Rmin_right; lra).
    replace (Rmax (2 * -1) 0) with 0 by (symmetry; apply Rmax_right; lra).
    destruct (Req_EM_T (1 - 0) 0); [lra|]. destruct (Req_EM_T (-1 - 0) 0); [lra|].
    replace (- / (1 - 0)) with (-1) by (field; lra). replace (- / (-1 - 0)) with 1 by (field; lra). reflexivity.
Qed.
Print Assumptions C65_variance_refuted.

Example C65_nonvacuous : exists grad hess,
  exact_derivatives grad hess (fun x => 0 - 2 * ((x - 3) * (x - 3)) / 2) (fun x => - 2 * (x - 3)) (fun _ => - 2) /\
  (forall x, not_infinite (hess (Fin x))).
Proof.
  exists (fun x => match x with Fin r => Fin (- 2 * (r - 3)) | _ => NaN end), (fun x => match x with Fin r => Fin (- 2) | _ => NaN end).
  split; [|intros x; exact I]. intros x. split; [|split; [|split; reflexivity]].
  - replace (- 2 * (x - 3)) with (- 1 * ((1 - 0) * (x - 3) + (x - 3) * (1 - 0))) by ring.
    apply (derivable_pt_lim_ext (mult_real_fct (- 1) ((id - fct_cte 3) * (id - fct_cte 3))%F)).
    { intros z. unfold mult_real_fct, mult_fct, minus_fct, fct_cte, id. lra. }
    apply derivable_pt_lim_scal. apply (derivable_pt_lim_mult (id - fct_cte 3)%F (id - fct_cte 3)%F);
      apply derivable_pt_lim_minus; try apply derivable_pt_lim_id; apply derivable_pt_lim_const.
  - replace (- 2) with (- 2 * (1 - 0)) by ring.
    apply (derivable_pt_lim_ext (mult_real_fct (- 2) (id - fct_cte 3)%F)).
    { intros z. unfold mult_real_fct, minus_fct, fct_cte, id. lra. }
    apply derivable_pt_lim_scal. apply derivable_pt_lim_minus; [apply derivable_pt_lim_id|apply derivable_pt_lim_const].
Qed.

(** * C66 *)

(** For every particle: the returned value is that of one of its inner samples, with a usable log-likelihood if any of
    them has one, and the weight is the log of the mean likelihood. *)
Theorem C66_nested : forall M pick lowest n r y (x : tstate xf) i j,
  categorical_ok pick -> (0 < n)%nat -> (i < m_rows (ts_val x))%nat -> (j < m_cols (ts_val x))%nat ->
  let sample k := m_get (hid_draw M (r + k) x) i j in
  let loglik k := obs_logp M (S (ts_time x)) j (sample k) y in
  let out := nested M pick lowest n r y x in
  ts_time (fst out) = S (ts_time x) /\
  (exists k, (k < n)%nat /\ m_get (ts_val (fst out)) i j = sample k /\
     ((exists k', (k' < n)%nat /\ usable lowest (loglik k')) -> usable lowest (loglik k))) /\
  (let m := mean_of (map (fun k => mass lowest (loglik k)) (seq 0 n)) in
   m_get (snd out) i j = if Rlt_dec 0 m then Fin (ln m) else NInf).
Proof.
  intros M pick lowest n r y x i j Hp Hn Hi Hj sample loglik out. split; [reflexivity|].
  set (L := map loglik (seq 0 n)).
  assert (EL : nested_logp M lowest n r y x i j = map (nan_to_num lowest) L).
  { unfold nested_logp, L. rewrite map_map. apply map_ext. intros k. reflexivity. }
  assert (HL : L <> []) by (unfold L; destruct n; [lia|discriminate]).
  assert (LL : length L = n) by (unfold L; now rewrite map_length, seq_length).
  split.
  - unfold out, nested, like, copy_state, nested_sample, propagate_from. cbn [fst ts_val m_get]. rewrite EL.
    set (P := nested_probs (map (nan_to_num lowest) L)). set (k := pick r i j P).
    assert (Hnth : forall k, (k < n)%nat -> nth k L NaN = loglik k).
    { intros q Hq. unfold L. rewrite (nth_indep _ NaN (loglik 0%nat)) by (rewrite map_length, seq_length; exact Hq).
      rewrite (map_nth loglik), seq_nth by exact Hq. reflexivity. }
    destruct (existsb (fun x => match level lowest x with Some _ => true | None => false end) L) eqn:Ex.
    + apply existsb_exists in Ex. destruct Ex as (l & Hl & El). assert (Hu : usable lowest l) by (unfold usable; destruct (level lowest l); [eauto|discriminate]).
      assert (EP : P = map (fun x => Fin (mass lowest x / Rsum (map (mass lowest) L))) L).
      { apply nested_probs_spec; [exact HL|]. now exists l. }
      assert (Sp : 0 < Rsum (map (mass lowest) L)).
      { apply Rsum_pos.
        - intros z Hz. apply in_map_iff in Hz. destruct Hz as (w & <- & _). unfold mass. destruct (level lowest w); [left; apply exp_pos|lra].
        - exists (mass lowest l). split; [now apply in_map|]. destruct Hu as [q Hq]. unfold mass. rewrite Hq. apply exp_pos. }
      assert (LP : length P = n) by (rewrite EP, map_length; exact LL).
      assert (HnP : forall q, (q < n)%nat -> nth q P (Fin 0) = Fin (mass lowest (loglik q) / Rsum (map (mass lowest) L))).
      { intros q Hq. rewrite EP. rewrite (nth_indep _ _ (Fin (mass lowest NaN / Rsum (map (mass lowest) L)))) by (rewrite map_length; lia).
        rewrite (map_nth (fun x => Fin (mass lowest x / Rsum (map (mass lowest) L)))), Hnth by exact Hq. reflexivity. }
      destruct (Hp r i j P) as [K1 K2].
      { destruct (In_nth L l NaN Hl) as (q & Hq & Eq). rewrite LL in Hq. exists q. split; [|lia].
        rewrite (nth_indep P NaN (Fin 0)) by lia. rewrite HnP by exact Hq. rewrite <- Hnth, Eq by exact Hq.
        destruct Hu as [z Hz]. unfold mass at 1. rewrite Hz. intros H. injection H as H.
        pose proof (exp_pos z). assert (0 < exp z / Rsum (map (mass lowest) L)) by now apply Rdiv_lt_0_compat. lra. }
      fold k in K1, K2. rewrite LP in K1. exists k. split; [exact K1|]. split; [reflexivity|]. intros _.
      rewrite HnP in K2 by exact K1. unfold usable. destruct (level lowest (loglik k)) as [z|] eqn:Ek; [eauto|].
      exfalso. apply K2. f_equal. unfold mass at 1. rewrite Ek. unfold Rdiv. ring.
    + assert (Hd : forall x, In x L -> ~ usable lowest x).
      { intros z Hz [q Hq]. assert (existsb (fun x => match level lowest x with Some _ => true | None => false end) L = true).
        { apply existsb_exists. exists z. split; [exact Hz|]. now rewrite Hq. } congruence. }
      assert (EP : P = map (fun _ => Fin (/ INR (length L))) L) by (apply nested_probs_dead; assumption).
      assert (LP : length P = n) by (rewrite EP, map_length; exact LL).
      assert (Hpos : 0 < / INR (length L)) by (apply Rinv_0_lt_compat, lt_0_INR; lia).
      destruct (Hp r i j P) as [K1 _].
      { exists 0%nat. split; [|lia]. rewrite EP. assert (Hz : forall (q : R) (K : list xf), K <> [] -> nth 0 (map (fun _ => Fin q) K) NaN = Fin q) by (intros ? [|]; [congruence|reflexivity]).
        rewrite Hz by exact HL. intros H. injection H as H. lra. }
      fold k in K1. rewrite LP in K1. exists k. split; [exact K1|]. split; [reflexivity|].
      intros (q & Hq & Hu). exfalso. apply (Hd (loglik q)); [|exact Hu]. unfold L. apply in_map, in_seq. lia.
  - cbv zeta. unfold out, nested, like. cbn [snd m_get]. rewrite EL.
    destruct (nested_weight_spec lowest L HL) as [_ E]. rewrite E. unfold L. rewrite map_map. reflexivity.
Qed.
Print Assumptions C66_nested.

(** A categorical variable that meets the hypothesis: the first outcome of positive probability. *)
Definition first_possible (_ _ _ : nat) (probs : list xf) : nat :=
  match find (fun k => negb (match nth k probs NaN with Fin x => if Req_EM_T x 0 then true else false | _ => false end)) (seq 0 (length probs)) with
  | Some k => k | None => 0
  end.
Example C66_nonvacuous : categorical_ok first_possible.
Proof.
  intros r i j probs (k & Hk & Hl). unfold first_possible. destruct (find _ _) as [q|] eqn:E.
  - apply find_some in E. destruct E as [E1 E2]. apply in_seq in E1. split; [lia|]. rewrite (nth_indep _ _ NaN) by lia.
    intros H. rewrite H in E2. destruct (Req_EM_T 0 0); [discriminate|lra].
  - exfalso. assert (Hs : In k (seq 0 (length probs))) by (apply in_seq; lia). pose proof (find_none _ _ E k Hs) as F.
    cbv beta in F. destruct (nth k probs NaN) as [x| | |]; try discriminate. destruct (Req_EM_T x 0) as [->|]; [now apply Hk|discriminate].
Qed.

(** * C71 *)

(** A draw [v] with weight [w] from the normal kernel (loc, sd), for a target density. *)
Definition importance_draw (loc sd : xf) (z : R) (target : xf -> xf) (v w : xf) : Prop :=
  v = xadd loc (xmul sd (Fin z)) /\ w = xsub (target v) (normal_logp loc sd v).

Section Importance.
  Variables (M : ssm) (autodiff : (xf -> xf) -> xf -> xf) (pick : nat -> nat -> nat -> list xf -> nat) (lowest : R).
  Variables (r : nat) (y : xf) (x : tstate xf) (w nw : mat xf) (i j : nat).
  Let t := ts_time x.
  Let prev := m_get (ts_val x) i j.
  (** Joint log density of observation and new value. *)
  Let joint (v : xf) := xadd (obs_logp M (S t) j v y) (hid_logp M t j prev v).

  Let outcome normals c := sample_weigh M normals autodiff pick lowest c r y x w nw.
  Let value normals c := m_get (ts_val (fst (outcome normals c))) i j.
  Let weight normals c := m_get (snd (outcome normals c)) i j.

  (** Bootstrap: a draw from the hidden process, weighted by the density of the observation at the next time. *)
  Lemma bootstrap_weights normals : value normals PBootstrap = m_get (hid_draw M r x) i j /\
    weight normals PBootstrap = obs_logp M (S t) j (value normals PBootstrap) y.
  Proof. split; reflexivity. Qed.

  (** Linear and Linearized: a normal draw, weighted by joint density over kernel density.  The kernel does not depend
      on the noise. *)
  Lemma kernel_weights c : match c with PLinear | PLinearized _ => True | _ => False end ->
    exists loc sd, forall normals, importance_draw loc sd (normals r i j) joint (value normals c) (weight normals c).
  Proof.
    destruct c; try contradiction; intros _.
    - exists (fst (m_get (linear_kernel M y x) i j)), (snd (m_get (linear_kernel M y x) i j)). intros normals. split; reflexivity.
    - unfold value, weight, outcome. cbn [sample_weigh]. unfold linearized.
      set (kernel := like (ts_val x) _). exists (fst (m_get kernel i j)), (snd (m_get kernel i j)). intros normals. split; reflexivity.
  Qed.
End Importance.

Theorem C71_bootstrap : forall M normals autodiff pick lowest r y (x : tstate xf) w nw i j,
  let out := sample_weigh M normals autodiff pick lowest PBootstrap r y x w nw in
  let v := m_get (ts_val (fst out)) i j in
  v = m_get (hid_draw M r x) i j /\ m_get (snd out) i j = obs_logp M (S (ts_time x)) j v y.
Proof. intros. apply (bootstrap_weights M autodiff pick lowest r y x w nw i j normals). Qed.
Print Assumptions C71_bootstrap.

Theorem C71_kernels : forall M autodiff pick lowest c r y (x : tstate xf) w nw i j,
  match c with PLinear | PLinearized _ => True | _ => False end ->
  exists loc sd, forall normals,
    let out := sample_weigh M normals autodiff pick lowest c r y x w nw in
    importance_draw loc sd (normals r i j)
      (fun v => xadd (obs_logp M (S (ts_time x)) j v y) (hid_logp M (ts_time x) j (m_get (ts_val x) i j) v))
      (m_get (ts_val (fst out)) i j) (m_get (snd out) i j).
Proof. intros. now apply kernel_weights. Qed.
Print Assumptions C71_kernels.

(** The three Gaussian proposals replace the hidden density by one normal density per filter, fitted to the propagated
    particles: its mean and variance are the weighted ones. *)
Definition fitted (nw : list xf) (v : list xf) (loc sd : xf) : Prop :=
  loc = filter_mean v nw /\ sd = xsqrt (filter_variance v nw).

Theorem C71_gaussian : forall M autodiff pick lowest r y (x : tstate xf) w nw i j,
  exists loc sd, fitted (col nw j) (col (hid_draw M r x) j) loc sd /\
  forall normals, let out := sample_weigh M normals autodiff pick lowest PGaussian r y x w nw in
    let v := m_get (ts_val (fst out)) i j in
    v = xadd loc (xmul sd (Fin (normals (S r) i j))) /\ m_get (snd out) i j = obs_logp M (ts_time x) j v y.
Proof.
  intros. exists (fst (predictive M r x nw j)), (snd (predictive M r x nw j)). split; [split; reflexivity|].
  intros normals. split; reflexivity.
Qed.
Print Assumptions C71_gaussian.

Theorem C71_gaussian_linear : forall M autodiff pick lowest r y (x : tstate xf) w nw i j,
  exists ploc psd, fitted (col nw j) (col (hid_draw M (S r) x) j) ploc psd /\
  exists loc sd, forall normals, let out := sample_weigh M normals autodiff pick lowest PGaussianLinear r y x w nw in
    importance_draw loc sd (normals r i j)
      (fun v => xadd (obs_logp M (S (ts_time x)) j v y) (normal_logp ploc psd v))
      (m_get (ts_val (fst out)) i j) (m_get (snd out) i j).
Proof.
  intros. exists (fst (predictive M (S r) x nw j)), (snd (predictive M (S r) x nw j)). split; [split; reflexivity|].
  cbn [sample_weigh]. unfold gaussian_linear. set (kernel := like (ts_val x) _).
  exists (fst (m_get kernel i j)), (snd (m_get kernel i j)). intros normals. split; reflexivity.
Qed.
Print Assumptions C71_gaussian_linear.

Theorem C71_gaussian_linearized : forall M autodiff pick lowest s r y (x : tstate xf) w nw i j,
  exists ploc psd, fitted (col nw j) (col (hid_draw M r x) j) ploc psd /\
  exists loc sd, forall normals, let out := sample_weigh M normals autodiff pick lowest (PGaussianLinearized s) r y x w nw in
    importance_draw loc sd (normals (S r) i j)
      (fun v => xadd (obs_logp M (ts_time x) j v y) (normal_logp ploc psd v))
      (m_get (ts_val (fst out)) i j) (m_get (snd out) i j).
Proof.
  intros. exists (fst (predictive M r x nw j)), (snd (predictive M r x nw j)). split; [split; reflexivity|].
  cbn [sample_weigh]. unfold gaussian_linearized. set (kernel := like (ts_val x) _).
  exists (fst (m_get kernel i j)), (snd (m_get kernel i j)). intros normals. split; reflexivity.
Qed.
Print Assumptions C71_gaussian_linearized.

(** * C72 *)

(** The default look-ahead weight of an affine model: the log density of the observation, one step later, at the mean of
    the hidden process. *)
Theorem C72_default_look_ahead : forall M normals autodiff pick lowest c rs y (x : tstate xf) i j,
  match c with PLinear | PGaussianLinear => False | _ => True end ->
  let mean := fst (mean_scale M (ts_time x) j (m_get (ts_val x) i j)) in
  m_get (pre_weight (with_proposal M normals autodiff pick lowest c rs) y x) i j = obs_logp M (S (ts_time x)) j mean y.
Proof. intros M normals autodiff pick lowest c rs y x i j Hc. destruct c; try contradiction; reflexivity. Qed.
Print Assumptions C72_default_look_ahead.

Example C71_C72_nonvacuous : forall normals autodiff pick,
  m_get (ts_val (fst (sample_weigh halving normals autodiff pick 0 PLinear 0 (Fin 1) (TS 0 (single (Fin 4))) (single (Fin 0)) (single (Fin 1))))) 0 0
  = Fin (/ 2 * (2 + 1) + sqrt (/ 2) * normals 0%nat 0%nat 0%nat) /\
  m_get (pre_weight (with_proposal halving normals autodiff pick 0 PBootstrap (fun _ _ w => Ok (arange (m_rows w) (m_cols w)))) (Fin 1)
           (TS 0 (single (Fin 4)))) 0 0 = normal_logp (Fin 2) (Fin 1) (Fin 1).
Proof.
  intros. split.
  - cbn [sample_weigh linear fst ts_val m_get draws propagate_from copy_state like linear_kernel halving mean_scale single par_a par_b par_s ts_time xmul xsub xadd xopp].
    rewrite find_optimal_density_fin by lra. unfold normal_draw. cbn [fst snd xmul xadd].
    replace (/ (/ (1 * 1) + 1 * / (1 * 1) * 1)) with (/ 2) by (f_equal; lra). f_equal. f_equal. lra.
  - cbn. f_equal. f_equal. lra.
Qed.
