(** Property C120 (pyfilter/filters/particle/proposals/approximate.py:76-101). *)
From Coq Require Import Reals List Bool Arith Lia Lra.
From Coquelicot Require Import Coquelicot.
From Verif.Model Require Import Base Xf Tensor Weights Particle Mode Proposal.
From Verif.Spec Require Import WeightsSpec ProposalSpec GaussianLinearSpec.
From Verif.Proofs Require Import WeightsProofs MomentsProofs ProposalProofs.
From Verif.Props Require Import ProposalProps.
Import ListNotations.
Local Open Scope R_scope.

Lemma gauss_positive m s x : 0 < s -> 0 < gauss m s x.
Proof.
  intros S. unfold gauss. apply Rmult_lt_0_compat; [|apply exp_pos]. apply Rinv_0_lt_compat, Rmult_lt_0_compat; [exact S|].
  apply sqrt_lt_R0. pose proof PI_RGT_0. lra.
Qed.
Lemma predictive_deviation a s g : 0 < s -> 0 < g -> 0 < sqrt (s * s + a * a * (g * g)).
Proof. intros S G. apply sqrt_lt_R0. pose proof (Rle_0_sqr a) as A. unfold Rsqr in A. pose proof (Rmult_lt_0_compat _ _ S S). pose proof (Rmult_lt_0_compat _ _ G G). nra. Qed.
Lemma conjugate_posterior a b s g m y : 0 < s -> 0 < g ->
  let cov := / (/ (g * g) + a * / (s * s) * a) in posterior_of m g a b s y (cov * (/ (g * g) * m + a * (/ (s * s) * (y - b)))) (sqrt cov).
Proof.
  intros S G cov. pose proof (cov_pos a s g S G) as C. fold cov in C. assert (D : 0 < sqrt cov) by now apply sqrt_lt_R0. split; [exact D|]. intros x.
  pose proof (conjugate_weight a s g m (y - b) S G b x) as E. fold cov in E. replace (y - b + b) with y in E by ring. fold (predictive_density a b s m g y) in E.
  set (loc := cov * _) in *. pose proof (gauss_positive m g x G) as P1. pose proof (gauss_positive (a * x + b) s y S) as P2. pose proof (gauss_positive loc (sqrt cov) x D) as P3.
  assert (P4 : 0 < predictive_density a b s m g y) by now apply gauss_positive, predictive_deviation.
  apply ln_inv; [now apply Rmult_lt_0_compat|now apply Rmult_lt_0_compat|]. rewrite !ln_mult by assumption. lra.
Qed.
(** The precision of a posterior. *)
Lemma posterior_precision m g a b s y loc sd : 0 < s -> 0 < g -> posterior_of m g a b s y loc sd -> / (sd * sd) = / (g * g) + a * a / (s * s).
Proof.
  intros S G [D E]. assert (P4 : 0 < predictive_density a b s m g y) by now apply gauss_positive, predictive_deviation.
  assert (L : forall x, ln (gauss m g x) + ln (gauss (a * x + b) s y) = ln (predictive_density a b s m g y) + ln (gauss loc sd x)).
  { intros x. rewrite <- !ln_mult by (try assumption; now apply gauss_positive). now rewrite E. }
  pose proof (L 1) as L1. pose proof (L (- (1))) as L2. pose proof (L 0) as L0. set (c := ln (predictive_density a b s m g y)) in *. clearbody c.
  rewrite !ln_gauss in L1, L2, L0 by assumption.
  assert (Q : forall d u, d <> 0 -> u / (2 * (d * d)) = u * / (d * d) / 2) by (intros; field; assumption). unfold Rdiv in *. 
  rewrite !(Q sd), !(Q g), !(Q s) in * by lra.
  set (i := / (sd * sd)) in *. set (k := / (g * g)) in *. set (q := / (s * s)) in *. nra.
Qed.

(** * C120 *)
(** The kernel of GaussianLinear is the exact posterior for a normal state whose mean is the transition mean at the mean of the
    particles and whose variance is the transition variance there plus the variance of the particles. *)
Theorem C120_kernel : forall M autodiff pick lowest f g a b s r y (x : tstate xf) wt nw i j v w,
  normal_hidden M f g -> linear_observations M a b s -> col (ts_val x) j = map Fin v -> col nw j = map Fin w -> prob_vec w ->
  let t := ts_time x in let m := expect (fun x => x) w v in
  exists loc sd, posterior_of (f t j m) (sqrt (g t j m * g t j m + particle_variance w v)) (a j) (b j) (s j) y loc sd /\
  forall normals, m_get (ts_val (fst (sample_weigh M normals autodiff pick lowest PGaussianLinear r (Fin y) x wt nw))) i j = Fin (loc + sd * normals r i j).
Proof.
  intros M autodiff pick lowest f g a b s r y x wt nw i j v w Hh Ho Ev Ew Pw t m.
  destruct (Hh t j m) as (Hg & Hms & _). destruct (Ho j) as (Hs & Ha & Hb & Hps & _).
  assert (Vn : 0 <= particle_variance w v) by now apply variance_nonneg. set (V := particle_variance w v) in *. set (G := sqrt (g t j m * g t j m + V)).
  assert (Gp : 0 < g t j m * g t j m + V) by nra. assert (G0 : 0 < G) by now apply sqrt_lt_R0. assert (G2 : G * G = g t j m * g t j m + V) by (apply sqrt_sqrt; lra).
  exists (/ (/ (G * G) + a j * / (s j * s j) * a j) * (/ (G * G) * f t j m + a j * (/ (s j * s j) * (y - b j)))), (sqrt (/ (/ (G * G) + a j * / (s j * s j) * a j))).
  split; [now apply conjugate_posterior|]. intros normals. cbn [sample_weigh]. unfold gaussian_linear, draws, like, propagate_from. cbn [fst ts_val m_get]. fold t.
  rewrite Ev, Ew, filter_mean_fin, filter_variance_fin. fold m. change (expect (fun x0 => (x0 - m) * (x0 - m)) w v) with V. rewrite Hms, Ha, Hb, Hps. cbn [xsub xadd xopp xmul]. rewrite <- G2.
  rewrite find_optimal_density_fin by assumption. unfold normal_draw. cbn [fst snd xmul xadd]. reflexivity.
Qed.
Print Assumptions C120_kernel.

Lemma expect_affine w v c d (h : R -> R) : length w = length v -> Rsum w = 1 -> expect (fun x => c * h x + d) w v = c * expect h w v + d.
Proof.
  intros L S. unfold expect. rewrite (Rsum_map_ext _ (fun p => c * (fst p * h (snd p)) + d * fst p)) by (intros; ring).
  rewrite Rsum_map_plus, !Rsum_map_scale, (map_fst_combine w v L), S. ring.
Qed.
Lemma next_moments w v slope shift g : length w = length v -> Rsum w = 1 ->
  next_mean w v (fun x => slope * x + shift) = slope * expect (fun x => x) w v + shift /\
  next_variance w v (fun x => slope * x + shift) (fun _ => g) = g * g + slope * slope * particle_variance w v.
Proof.
  intros L S. assert (E : next_mean w v (fun x => slope * x + shift) = slope * expect (fun x => x) w v + shift) by (apply (expect_affine w v slope shift (fun x => x) L S)).
  split; [exact E|]. unfold next_variance. rewrite E. unfold particle_variance. set (m := expect (fun x => x) w v).
  transitivity (expect (fun x => slope * slope * ((x - m) * (x - m)) + g * g) w v).
  - unfold expect. apply Rsum_map_ext. intros p _. ring.
  - rewrite (expect_affine w v (slope * slope) (g * g) (fun x => (x - m) * (x - m)) L S). ring.
Qed.

(** For a transition [slope x + shift + g noise] the mean is the true mean of the next state, but the variance exceeds the
    true one by [1 - slope^2] times the variance of the particles. *)
Theorem C120_affine : forall M autodiff pick lowest f g a b s r y (x : tstate xf) wt nw i j v w slope shift dev,
  normal_hidden M f g -> linear_observations M a b s -> col (ts_val x) j = map Fin v -> col nw j = map Fin w -> prob_vec w -> length w = length v ->
  (forall z, f (ts_time x) j z = slope * z + shift /\ g (ts_time x) j z = dev) ->
  exists loc sd, posterior_of (next_mean w v (f (ts_time x) j)) (sqrt (next_variance w v (f (ts_time x) j) (g (ts_time x) j) + (1 - slope * slope) * particle_variance w v)) (a j) (b j) (s j) y loc sd /\
  forall normals, m_get (ts_val (fst (sample_weigh M normals autodiff pick lowest PGaussianLinear r (Fin y) x wt nw))) i j = Fin (loc + sd * normals r i j).
Proof.
  intros M autodiff pick lowest f g a b s r y x wt nw i j v w slope shift dev Hh Ho Ev Ew Pw L A.
  destruct (C120_kernel M autodiff pick lowest f g a b s r y x wt nw i j v w Hh Ho Ev Ew Pw) as (loc & sd & P & D). cbv zeta in P.
  exists loc, sd. split; [|exact D]. destruct (next_moments w v slope shift dev L (proj2 Pw)) as [N1 N2].
  assert (E1 : next_mean w v (f (ts_time x) j) = next_mean w v (fun z => slope * z + shift)).
  { unfold next_mean, expect. apply Rsum_map_ext. intros p _. now rewrite (proj1 (A _)). }
  assert (E2 : next_variance w v (f (ts_time x) j) (g (ts_time x) j) = next_variance w v (fun z => slope * z + shift) (fun _ => dev)).
  { unfold next_variance. rewrite E1. unfold expect. apply Rsum_map_ext. intros p _. now rewrite (proj1 (A _)), (proj2 (A _)). }
  rewrite E1, E2, N1, N2. rewrite (proj1 (A _)), (proj2 (A _)) in P.
  replace (dev * dev + slope * slope * particle_variance w v + (1 - slope * slope) * particle_variance w v) with (dev * dev + particle_variance w v) by ring. exact P.
Qed.
Print Assumptions C120_affine.

(** Two particles at -1 and 1 of equal weight, x' = x/2 + noise, y = x + noise, observation 0: the next state has variance
    5/4, and GaussianLinear does not sample from the posterior for it (it takes the variance to be 2). *)
Definition pair_state : tstate xf := TS 0 (Mat 2 1 (fun i _ => if (i =? 0)%nat then Fin (-1) else Fin 1)).
Definition pair_weights : mat xf := Mat 2 1 (fun _ _ => Fin (/ 2)).
Theorem C120_variance_refuted : forall autodiff pick lowest r wt i, let w := [/ 2; / 2] in let v := [-1; 1] in
  next_variance w v (fun x => / 2 * x) (fun _ => 1) = 5 / 4 /\
  ~ exists loc sd, posterior_of (next_mean w v (fun x => / 2 * x)) (sqrt (next_variance w v (fun x => / 2 * x) (fun _ => 1))) 1 0 1 0 loc sd /\
    forall normals, m_get (ts_val (fst (sample_weigh halving normals autodiff pick lowest PGaussianLinear r (Fin 0) pair_state wt pair_weights))) i 0 = Fin (loc + sd * normals r i 0%nat).
Proof.
  intros autodiff pick lowest r wt i w v. assert (Nv : next_variance w v (fun x => / 2 * x) (fun _ => 1) = 5 / 4).
  { unfold next_variance, next_mean, expect, Rsum, w, v. cbn. lra. }
  split; [exact Nv|]. intros (loc & sd & P & D). rewrite Nv in P. destruct C63_nonvacuous as [Hh Ho].
  assert (Pw : prob_vec w) by (split; [intros q [<-|[<-|[]]]; lra|unfold Rsum, w; cbn; lra]).
  destruct (C120_kernel halving autodiff pick lowest _ _ _ _ _ r 0 pair_state wt pair_weights i 0 v w Hh Ho eq_refl eq_refl Pw) as (loc' & sd' & P' & D'). cbv zeta in P'.
  assert (Vp : particle_variance w v = 1) by (unfold particle_variance, expect, Rsum, w, v; cbn; lra).
  rewrite Vp in P'. assert (S5 : 0 < sqrt (5 / 4)) by (apply sqrt_lt_R0; lra). assert (S2 : 0 < sqrt (1 * 1 + 1)) by (apply sqrt_lt_R0; lra).
  apply posterior_precision in P; [|lra|exact S5]. apply posterior_precision in P'; [|lra|exact S2]. rewrite sqrt_sqrt in P, P' by lra.
  pose proof (D (fun _ _ _ => 0)) as D0. pose proof (D (fun _ _ _ => 1)) as D1. rewrite D' in D0, D1. injection D0 as D0. injection D1 as D1.
  assert (sd' = sd) by lra. subst sd'. rewrite P in P'. lra.
Qed.
Print Assumptions C120_variance_refuted.

Example C120_nonvacuous : normal_hidden halving (fun _ _ x => / 2 * x) (fun _ _ _ => 1) /\ linear_observations halving (fun _ => 1) (fun _ => 0) (fun _ => 1) /\
  col (ts_val pair_state) 0 = map Fin [-1; 1] /\ col pair_weights 0 = map Fin [/ 2; / 2] /\ prob_vec [/ 2; / 2] /\ particle_variance [/ 2; / 2] [-1; 1] = 1.
Proof.
  destruct C63_nonvacuous as [Hh Ho]. repeat (split; [assumption || reflexivity|]). split; [split; [intros q [<-|[<-|[]]]; lra|unfold Rsum; cbn; lra]|].
  unfold particle_variance, expect, Rsum. cbn. lra.
Qed.

(** * GaussianLinearized *)
Lemma ln_gauss_slope m s z : 0 < s -> derivable_pt_lim (fun z => ln (gauss m s z)) z ((m - z) / (s * s)).
Proof.
  intros S. apply (derivable_pt_lim_ext (fun z => - / (2 * (s * s)) * ((z - m) * (z - m)) + (- ln s - ln (sqrt (2 * PI))))).
  - intros x. rewrite ln_gauss by exact S. field. lra.
  - apply is_derive_Reals. auto_derive; [exact I|]. field. lra.
Qed.

(** What its kernel is centred at and how wide it is, with first order steps: the steps start at the transition mean of the mean of
    the particles and go up the gradient of the log likelihood plus the log density of the normal with the moments of the
    propagated particles [v']; the variance is that of the particles plus that of the transition, as in C120_kernel. *)
Theorem C120_linearized_first_order : forall M normals autodiff pick lowest st f g r y (x : tstate xf) wt nw i j v v' w lik lik',
  second_order st = false -> true_autodiff autodiff -> normal_hidden M f g ->
  col (ts_val x) j = map Fin v -> col (hid_draw M r x) j = map Fin v' -> col nw j = map Fin w -> prob_vec w -> 0 < particle_variance w v' ->
  (forall z, obs_logp M (S (ts_time x)) j (Fin z) (Fin y) = Fin (lik z)) -> (forall z, derivable_pt_lim lik z (lik' z)) ->
  let t := ts_time x in let m := expect (fun x => x) w v in
  m_get (ts_val (fst (sample_weigh M normals autodiff pick lowest (PGaussianLinearized st) r (Fin y) x wt nw))) i j =
  Fin (climb (n_steps st) (alpha st) (fun z => lik' z + (expect (fun x => x) w v' - z) / particle_variance w v') (f t j m)
       + sqrt (particle_variance w v + g t j m * g t j m) * normals (S r) i j).
Proof.
  intros M normals autodiff pick lowest st f g r y x wt nw i j v v' w lik lik' H1 Ha Hh Ev Ev' Ew Pw Vp Hl Hd t m.
  destruct (Hh t j m) as (Hg & Hms & _).
  assert (Vn : 0 <= particle_variance w v) by now apply variance_nonneg. set (V := particle_variance w v) in *.
  set (V' := particle_variance w v') in *. set (m' := expect (fun x => x) w v').
  assert (S' : sqrt V' * sqrt V' = V') by (apply sqrt_sqrt; lra). assert (S0 : 0 < sqrt V') by now apply sqrt_lt_R0.
  cbn [sample_weigh]. unfold gaussian_linearized, predictive, hid_propagate, propagate_from, draws, like, copy_state. cbn [fst snd ts_val m_get]. fold t.
  rewrite Ev, Ev', Ew, !filter_mean_fin, !filter_variance_fin. fold m. fold m'.
  change (expect (fun x0 => (x0 - m) * (x0 - m)) w v) with V. change (expect (fun x0 => (x0 - m') * (x0 - m')) w v') with V'.
  rewrite Hms, H1. cbn [fst snd]. rewrite (xsqrt_pos V') by lra.
  assert (Gn : 0 <= V + g t j m * g t j m) by nra. cbn [xmul xadd]. rewrite (xsqrt_pos _ Gn). fold t in Hl.
  set (F := objective M (S t) j (Fin y) (normal_logp (Fin m') (Fin (sqrt V')))).
  assert (EF : forall z, F (Fin z) = Fin (lik z + ln (gauss m' (sqrt V') z))).
  { intros z. unfold F, objective. rewrite Hl, normal_logp_gauss by exact S0. reflexivity. }
  assert (Eg : forall z, autodiff F (Fin z) = Fin (lik' z + (m' - z) / V')).
  { apply (Ha F (fun z => lik z + ln (gauss m' (sqrt V') z))); [exact EF|]. intros z. replace ((m' - z) / V') with ((m' - z) / (sqrt V' * sqrt V')) by now rewrite S'.
    apply (derivable_pt_lim_plus lik (fun z => ln (gauss m' (sqrt V') z))); [apply Hd|now apply ln_gauss_slope]. }
  assert (E : forall n, Nat.iter n (legacy_step (autodiff F) (autodiff (autodiff F)) (alpha st) false) (Fin (f t j m), Fin (sqrt (V + g t j m * g t j m)))
    = (Fin (climb n (alpha st) (fun z => lik' z + (m' - z) / V') (f t j m)), Fin (sqrt (V + g t j m * g t j m)))).
  { induction n as [|n IH]; [reflexivity|]. change (Nat.iter (S n) ?a ?b) with (a (Nat.iter n a b)). rewrite IH. unfold legacy_step. rewrite Eg. reflexivity. }
  unfold find_mode_legacy. rewrite E. reflexivity.
Qed.
Print Assumptions C120_linearized_first_order.

(** With second order steps and linear observations it is exact, for the moments of the propagated particles. *)
Theorem C120_linearized_exact : forall M autodiff pick lowest st f g a b s r y (x : tstate xf) wt nw i j v v' w,
  second_order st = true -> (1 <= n_steps st)%nat -> true_autodiff autodiff -> normal_hidden M f g -> linear_observations M a b s ->
  col (ts_val x) j = map Fin v -> col (hid_draw M r x) j = map Fin v' -> col nw j = map Fin w -> prob_vec w -> 0 < particle_variance w v' ->
  exists loc sd, posterior_of (expect (fun x => x) w v') (sqrt (particle_variance w v')) (a j) (b j) (s j) y loc sd /\
  forall normals, m_get (ts_val (fst (sample_weigh M normals autodiff pick lowest (PGaussianLinearized st) r (Fin y) x wt nw))) i j = Fin (loc + sd * normals (S r) i j).
Proof.
  intros M autodiff pick lowest st f g a b s r y x wt nw i j v v' w H2 Hn Ha Hh Ho Ev Ev' Ew Pw Vp.
  set (t := ts_time x). set (m := expect (fun x => x) w v). destruct (Hh t j m) as (Hg & Hms & _). destruct (Ho j) as (Hs & _ & _ & _ & Hl).
  assert (Vn : 0 <= particle_variance w v) by now apply variance_nonneg. set (V := particle_variance w v) in *.
  set (V' := particle_variance w v') in *. set (m' := expect (fun x => x) w v').
  assert (S0 : 0 < sqrt V') by now apply sqrt_lt_R0.
  pose proof (conjugate_posterior (a j) (b j) (s j) (sqrt V') m' y Hs S0) as HP. cbv zeta in HP.
  set (cov := / (/ (sqrt V' * sqrt V') + a j * / (s j * s j) * a j)) in *.
  set (loc := cov * (/ (sqrt V' * sqrt V') * m' + a j * (/ (s j * s j) * (y - b j)))) in *.
  exists loc, (sqrt cov). split; [exact HP|]. intros normals. destruct HP as [D HP].
  assert (Cp : 0 < cov) by (apply cov_pos; assumption). assert (Cs : sqrt cov * sqrt cov = cov) by (apply sqrt_sqrt; lra).
  cbn [sample_weigh]. unfold gaussian_linearized, predictive, hid_propagate, propagate_from, draws, like, copy_state. cbn [fst snd ts_val m_get]. fold t.
  rewrite Ev, Ev', Ew, !filter_mean_fin, !filter_variance_fin. fold m. fold m'.
  change (expect (fun x0 => (x0 - m) * (x0 - m)) w v) with V. change (expect (fun x0 => (x0 - m') * (x0 - m')) w v') with V'.
  rewrite Hms, H2. cbn [fst snd]. rewrite (xsqrt_pos V') by lra.
  set (F := objective M (S t) j (Fin y) (normal_logp (Fin m') (Fin (sqrt V')))).
  set (c := ln (predictive_density (a j) (b j) (s j) m' (sqrt V') y) - ln (sqrt cov) - ln (sqrt (2 * PI))).
  assert (P4 : 0 < predictive_density (a j) (b j) (s j) m' (sqrt V') y) by now apply gauss_positive, predictive_deviation.
  assert (EF : forall z, F (Fin z) = Fin (c - / cov * ((z - loc) * (z - loc)) / 2)).
  { intros z. unfold F, objective. rewrite Hl, normal_logp_gauss by exact S0. cbn [xadd]. f_equal.
    rewrite Rplus_comm, <- ln_mult by now apply gauss_positive. rewrite HP, ln_mult by (assumption || now apply gauss_positive).
    rewrite ln_gauss by exact D. rewrite Cs. unfold c. field. lra. }
  assert (D1 : forall z, derivable_pt_lim (fun z => c - / cov * ((z - loc) * (z - loc)) / 2) z (- / cov * (z - loc))).
  { intros z. apply is_derive_Reals. auto_derive; [exact I|]. field. lra. }
  assert (D2 : forall z, derivable_pt_lim (fun z => - / cov * (z - loc)) z (- / cov)).
  { intros z. apply is_derive_Reals. auto_derive; [exact I|]. field. lra. }
  pose proof (Ha F _ _ EF D1) as E1. pose proof (Ha (autodiff F) _ _ E1 D2) as E2.
  destruct (n_steps st) as [|n]; [lia|].
  destruct (C65_quadratic_mode (autodiff F) (autodiff (autodiff F)) c (/ cov) loc (alpha st) n (f t j m) (xsqrt (xadd (Fin V) (xmul (Fin (g t j m)) (Fin (g t j m)))))) as (_ & E & _).
  - now apply Rinv_0_lt_compat.
  - intros z. split; [apply D1|]. split; [apply D2|]. split; [apply E1|apply E2].
  - rewrite E. unfold normal_draw. cbn [fst snd xmul xadd]. rewrite Rinv_inv. reflexivity.
Qed.
Print Assumptions C120_linearized_exact.

(** An exact automatic differentiation exists; the model and particles of C120_nonvacuous, propagated to their own places. *)
Definition real_part (x : xf) : R := match x with Fin r => r | _ => 0 end.
Definition differentiate (F : xf -> xf) (x : xf) : xf := match x with Fin r => Fin (Derive (fun z => real_part (F (Fin z))) r) | _ => NaN end.
Example C120_linearized_nonvacuous : true_autodiff differentiate /\ col (hid_draw halving 0 pair_state) 0 = map Fin [-1; 1] /\
  (forall z, obs_logp halving 1 0 (Fin z) (Fin 0) = Fin (ln (gauss z 1 0))) /\ (forall z, derivable_pt_lim (fun z => ln (gauss z 1 0)) z (- z)).
Proof.
  split; [|split; [reflexivity|split]].
  - intros F h h' E D z. unfold differentiate. f_equal. apply is_derive_unique. apply (is_derive_ext h); [intros q; now rewrite E|]. apply is_derive_Reals, D.
  - intros z. apply normal_logp_gauss. lra.
  - intros z. apply (derivable_pt_lim_ext (fun z => ln (gauss 0 1 z))).
    + intros q. rewrite !ln_gauss by lra. field.
    + replace (- z) with ((0 - z) / (1 * 1)) by field. apply ln_gauss_slope. lra.
Qed.
