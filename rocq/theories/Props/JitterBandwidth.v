(** Property C84 (pyfilter/inference/sequential/kernels/jittering.py: the bandwidth of the kernels of Flury and Shephard). *)
From Coq Require Import Reals Lra Lia List Arith.
From Verif.Model Require Import Base Jitter.
From Verif.Spec Require Import JitterSpec.
From Verif.Props Require Import JitterProps.
Import ListNotations.
Local Open Scope nat_scope.

(** Sum of the squared weights: one over the effective sample size. *)
Definition square_sum (w : list R) (n : nat) : R := total n (fun i => (nth i w 0 ^ 2)%R).
(** [b] is 1.59 times the cube root of [q], restricted to the interval from [eps] to [1 - eps]. *)
Definition bandwidth_of (eps q b : R) : Prop := exists c, (0 < c /\ c ^ 3 = 1.59 ^ 3 * q /\ b = Rmin (Rmax c eps) (1 - eps))%R.
(** [r] is the robust standard deviation of component [j]: the smaller of the standard deviation and of the interquartile
    range over 1.349. *)
Definition spread (x : list (list R)) (w : list R) (n j : nat) (r : R) : Prop :=
  exists q1 q3, quantile_of x w n j (1 / 4) q1 /\ quantile_of x w n j (3 / 4) q3 /\ (0 <= r)%R /\ (r ^ 2 = Rmin (((q3 - q1) / 1.349) ^ 2) (var_of x w n j))%R.
Definition equal_weights (n : nat) : list R := repeat (/ INR n)%R n.

(** * Lemmas *)
Lemma cube_mono a b : (0 <= a)%R -> (0 <= b)%R -> (a <= b <-> a ^ 3 <= b ^ 3)%R.
Proof. intros A B. split; intros H; [apply pow_incr; lra|]. destruct (Rle_lt_dec a b) as [|L]; [assumption|]. exfalso. assert (b ^ 3 < a ^ 3)%R; [|lra].
  replace (a ^ 3)%R with (b ^ 3 + (a - b) * (a * a + a * b + b * b))%R by ring. assert (0 < (a - b) * (a * a + a * b + b * b))%R; [|lra]. apply Rmult_lt_0_compat; nra. Qed.
Lemma square_sum_pos x w n d : sample_ok x w n d -> 0 < n -> (/ INR n <= square_sum w n)%R.
Proof.
  intros S P. assert (N : (0 < INR n)%R) by now apply lt_0_INR. set (t := (/ INR n)%R).
  assert (H : (0 <= total n (fun i => ((nth i w 0 - t) ^ 2)%R))%R) by (apply total_pos; intros; apply pow2_ge_0).
  rewrite (total_ext n _ (fun i => (1 * nth i w 0 ^ 2 + (- t) * (2 * nth i w 0 + (- t) * 1))%R)) in H by (intros; ring).
  rewrite total_lin, (total_lin n 2 (- t) (fun i => nth i w 0%R) (fun _ => 1%R)), (weights_one S) in H. fold (square_sum w n) in H.
  assert (C : total n (fun _ => 1%R) = INR n). { clear. induction n; [reflexivity|]. rewrite S_INR. cbn. lra. } rewrite C in H.
  assert (T : (t * INR n = 1)%R) by (unfold t; field; lra). nra.
Qed.
Lemma inverse_pos n : 0 < n -> (0 < / INR n)%R. Proof. intros. now apply Rinv_0_lt_compat, lt_0_INR. Qed.
Lemma bandwidth_is eps x w n d : sample_ok x w n d -> 0 < n -> bandwidth_of eps (square_sum w n) (bandwidth eps w).
Proof.
  intros S P. assert (Q : (0 < square_sum w n)%R) by (pose proof (square_sum_pos _ _ _ _ S P); pose proof (inverse_pos n P); lra).
  assert (E : ess_normalized w = (/ square_sum w n)%R). { unfold ess_normalized, square_sum. rewrite (rsum_total w (fun a => (a ^ 2)%R) 0%R), (s_weights _ _ _ _ S). unfold Rdiv. ring. }
  exists (159 / 100 * Rpower (ess_normalized w) (- 1 / 3))%R. rewrite E. set (q := square_sum w n) in *.
  assert (H : (Rpower (/ q) (- 1 / 3) ^ 3 = q)%R).
  { rewrite <- Rpower_pow by apply exp_pos. rewrite Rpower_mult. replace (-1 / 3 * INR 3)%R with (- (1))%R by (cbn; field). rewrite Rpower_Ropp, Rpower_1 by now apply Rinv_0_lt_compat. now rewrite Rinv_inv. }
  assert (H0 : (0 < Rpower (/ q) (- 1 / 3))%R) by apply exp_pos.
  split; [lra|]. split; [|unfold bandwidth, clamp; now rewrite E]. rewrite Rpow_mult_distr, H. lra.
Qed.

Lemma spread_is order argmin x w n d j : sample_ok x w n d -> 0 < n -> order_ok order -> argmin_ok argmin -> no_ties x n j ->
  spread x w n j (sqrt (robust_var_column order argmin (column x j) w (mean_of x w n j))).
Proof.
  intros S P O A T. destruct (C60_robust order argmin x w n d j S P O A T) as (q1 & q3 & Q1 & Q3 & E). exists q1, q3. split; [exact Q1|]. split; [exact Q3|]. split; [apply sqrt_pos|].
  rewrite sqrt_sq; [exact E|]. rewrite E. apply Rmin_glb; [apply pow2_ge_0|apply (var_pos S)].
Qed.

(** * C84 *)
(** Both kernels: what [jitter] returns, with the bandwidth and the scale given without the code's formulas. *)
Theorem C84_scale : forall eps order argmin k ms x w n d, sample_ok x w n d -> 0 < n -> order_ok order -> argmin_ok argmin -> k = Shrinking ms \/ k = NonShrinking ms ->
  exists b, bandwidth_of eps (square_sum w n) b /\
  forall indices noise, List.length indices = n -> Forall (fun i => i < n) indices -> noise_shape noise n d ->
  exists out, jitter eps order argmin k x w indices noise = Ok out /\ List.length out = n /\ Forall (fun r => List.length r = d) out /\
  forall j, j < d -> no_ties x n j -> exists r, spread x w n j r /\
  forall slot, slot < n -> let m := mean_of x w n j in let v := at_ x (nth slot indices 0%nat) j in
    at_ out slot j = (match k with Shrinking _ => m + sqrt (1 - b ^ 2) * (v - m) | _ => v end + Rmax (b * r) ms * at_ noise slot j)%R.
Proof.
  intros eps order argmin k ms x w n d S P O A K. exists (bandwidth eps w). split; [eapply bandwidth_is; eassumption|]. intros indices noise L F N.
  assert (Fits : scale_fits k d) by (destruct K as [-> | ->]; exact I).
  destruct (C60_output eps order argmin k x w n d S P Fits) as (c & s & Es & Ec & Eo & _). destruct (Eo indices noise L F N) as (out & E1 & E2 & E3 & E4).
  exists out. split; [exact E1|]. split; [exact E2|]. split; [exact E3|]. intros j J T. exists (sqrt (robust_var_column order argmin (column x j) w (mean_of x w n j))).
  split; [eapply spread_is; eassumption|]. intros slot B. cbn zeta. rewrite E4, Ec, (proj2 (Es j J)) by assumption. destruct K as [-> | ->]; reflexivity.
Qed.
Print Assumptions C84_scale.

(** The bandwidth is determined, is within the bounds and grows with the sum of the squared weights. *)
Theorem C84_monotone : forall eps q q' b b', (0 < eps < 1 / 2)%R -> (0 <= q)%R -> (0 <= q')%R -> bandwidth_of eps q b -> bandwidth_of eps q' b' -> (eps <= b <= 1 - eps)%R /\ (q = q' -> b = b') /\ (q <= q' -> b <= b')%R.
Proof.
  intros eps q q' b b' Ep Q Q' (c & C & E & ->) (c' & C' & E' & ->). split; [split; [apply Rmin_glb; [apply Rmax_r|lra]|apply Rmin_r]|].
  assert (M : (c <= c' -> Rmin (Rmax c eps) (1 - eps) <= Rmin (Rmax c' eps) (1 - eps))%R).
  { intros L. apply Rle_min_compat_r, Rle_max_compat_r, L. }
  split; [|intros L; apply M, cube_mono; lra]. intros <-. assert (c = c'); [|now subst]. apply Rle_antisym; apply cube_mono; lra.
Qed.
Print Assumptions C84_monotone.

(** Equal weights give the smallest bandwidth of all weights: 1.59 times [n ^ (-1/3)] within the bounds. *)
Theorem C84_equal : forall eps x w n d b, (0 < eps < 1 / 2)%R -> sample_ok x w n d -> 0 < n -> bandwidth_of eps (square_sum w n) b ->
  (square_sum (equal_weights n) n = / INR n)%R /\
  (forall b', bandwidth_of eps (square_sum (equal_weights n) n) b' -> (b' <= b)%R) /\
  (w = equal_weights n -> b = eps \/ b = 1 - eps \/ b ^ 3 * INR n = 1.59 ^ 3)%R.
Proof.
  intros eps x w n d b Ep S P B. assert (N : (0 < INR n)%R) by now apply lt_0_INR. assert (E : (square_sum (equal_weights n) n = / INR n)%R).
  { unfold square_sum. rewrite (total_ext n _ (fun i => (0 * 0 + (/ INR n) ^ 2 * 1)%R)).
    - rewrite (total_lin n 0 _ (fun _ => 0%R) (fun _ => 1%R)). assert (C : total n (fun _ => 1%R) = INR n). { clear. induction n; [reflexivity|]. rewrite S_INR. cbn. lra. } rewrite C. field. lra.
    - intros i I. unfold equal_weights. assert (nth i (repeat (/ INR n)%R n) 0%R = (/ INR n)%R) as ->; [|ring]. rewrite (nth_indep _ 0%R (/ INR n)%R) by now rewrite repeat_length. apply nth_repeat. }
  split; [exact E|]. rewrite E. pose proof (inverse_pos n P) as Q. pose proof (square_sum_pos _ _ _ _ S P) as L. split.
  - intros b' B'. eapply (C84_monotone eps (/ INR n)%R (square_sum w n)); eauto; lra.
  - intros ->. destruct B as (c & C & E' & ->). rewrite E in E'. unfold Rmax, Rmin. destruct (Rle_dec c eps); destruct Rle_dec; auto. right; right. rewrite E'. field. lra.
Qed.
Print Assumptions C84_equal.

(** A sample of 27 particles with equal weights: bandwidth 0.53. *)
Lemma repeat_sum a n : fold_right Rplus 0%R (repeat a n) = (INR n * a)%R.
Proof. induction n; cbn [repeat fold_right]; [cbn; ring|]. rewrite S_INR, IHn. ring. Qed.
Example C84_nonvacuous : sample_ok (map (fun i => [INR i]) (seq 0 27)) (equal_weights 27) 27 1 /\ no_ties (map (fun i => [INR i]) (seq 0 27)) 27 0 /\
  bandwidth_of (1 / 8) (square_sum (equal_weights 27) 27) 0.53 /\ order_ok some_order /\ argmin_ok some_argmin.
Proof.
  assert (S : sample_ok (map (fun i => [INR i]) (seq 0 27)) (equal_weights 27) 27 1).
  { constructor; try reflexivity.
    - apply Forall_map, Forall_forall. reflexivity.
    - unfold equal_weights. apply Forall_forall. intros a I. apply repeat_spec in I. subst a. left. apply inverse_pos. lia.
    - unfold equal_weights. rewrite repeat_sum. apply Rinv_r. apply not_0_INR. lia. }
  split; [exact S|]. split; [|split; [|split; [apply some_order_ok|apply some_argmin_ok]]].
  - assert (H : forall i, i < 27 -> at_ (map (fun i => [INR i]) (seq 0 27)) i 0 = INR i).
    { intros i I. unfold at_. rewrite (nth_indep _ [] ((fun i => [INR i]) 0)) by (rewrite map_length, seq_length; lia). rewrite (map_nth (fun i => [INR i])), seq_nth by lia. reflexivity. }
    intros i i' I I' E. rewrite !H in E by assumption. now apply INR_eq.
  - exists 0.53%R. rewrite (proj1 (C84_equal (1 / 8) _ _ 27 1 _ ltac:(lra) S ltac:(lia) (bandwidth_is _ _ _ _ _ S ltac:(lia)))). rewrite INR_IZR_INZ. cbn [Z.of_nat Pos.of_succ_nat Pos.succ].
    split; [lra|]. split; [lra|]. rewrite Rmax_left, Rmin_left; lra.
Qed.
