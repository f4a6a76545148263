(** Property C118 (pyfilter/inference/sequential/kernels/jittering.py:25-46). *)
From Coq Require Import Reals Lra List Arith Lia.
From Verif.Model Require Import Base Jitter.
From Verif.Spec Require Import BandwidthSpec.
Local Open Scope R_scope.

Lemma power_minus (x : R) (m : nat) : 0 < x -> (0 < m)%nat -> 0 < Rpower x (- 1 / INR m) /\ Rpower x (- 1 / INR m) ^ m * x = 1.
Proof.
  intros X M. assert (N : 0 < INR m) by now apply lt_0_INR. split; [apply exp_pos|].
  rewrite <- Rpower_pow by apply exp_pos. rewrite Rpower_mult. replace (- 1 / INR m * INR m) with (- (1)) by (field; lra).
  rewrite Rpower_Ropp, Rpower_1 by exact X. field. lra.
Qed.
Lemma plus_four n : INR n + 4 = INR (n + 4).
Proof. rewrite plus_INR. cbn. lra. Qed.
Lemma silverman_equation n ess : 0 < ess -> 0 < silverman n ess /\ silverman n ess ^ (n + 4) * (ess * (INR n + 2)) = 4.
Proof.
  intros E. pose proof (pos_INR n) as P. unfold silverman. rewrite plus_four. assert (Q : 0 < ess * (INR n + 2) / 4) by (apply Rmult_lt_0_compat; [apply Rmult_lt_0_compat|]; lra).
  destruct (power_minus _ (n + 4) Q ltac:(lia)) as [A B]. split; [exact A|]. set (a := Rpower _ _ ^ (n + 4)) in *. clearbody a. lra.
Qed.
Lemma scott_equation n ess : 0 < ess -> 0 < scott n ess /\ (scott n ess / 1.059) ^ (n + 4) * ess = 1.
Proof.
  intros E. unfold scott. rewrite plus_four. destruct (power_minus ess (n + 4) E ltac:(lia)) as [A B]. split; [lra|]. set (a := Rpower _ _) in *. clearbody a. replace (1059 / 1000 * a / 1.059) with a by lra. exact B.
Qed.
(** The error relative to its value at the solution of the first order condition. *)
Lemma error_scaled d ess h0 h : 0 < ess -> 0 < h0 -> 0 < h -> h0 ^ (d + 4) * (ess * (INR d + 2)) = 4 ->
  integrated_error d ess h = 1 / (ess * h0 ^ d) * ((h0 / h) ^ d + INR d / 4 * (h / h0) ^ 4).
Proof.
  intros E H0 H Q. pose proof (pos_INR d). assert (P0 : 0 < h0 ^ d) by now apply pow_lt. assert (P1 : 0 < h ^ d) by now apply pow_lt.
  assert (Hd : (h0 / h) ^ d * h ^ d = h0 ^ d) by (rewrite <- Rpow_mult_distr; f_equal; field; lra).
  replace ((h0 / h) ^ d) with (h0 ^ d / h ^ d) by (rewrite <- Hd; field; lra).
  rewrite pow_add in Q. unfold integrated_error. replace (INR d + 2) with (4 / (h0 ^ d * h0 ^ 4 * ess)) by (rewrite <- Q; field; lra).
  field. lra.
Qed.
Lemma ratio_exp a b : 0 < a -> 0 < b -> forall k, (a / b) ^ k = exp (INR k * (ln a - ln b)).
Proof.
  intros A B k. assert (Q : 0 < a / b) by now apply Rdiv_lt_0_compat. rewrite <- Rpower_pow by exact Q. unfold Rpower, Rdiv. f_equal. f_equal.
  rewrite ln_mult, ln_Rinv by (try apply Rinv_0_lt_compat; assumption). ring.
Qed.
Lemma first_order_best d ess h0 : (0 < d)%nat -> 0 < ess -> 0 < h0 -> h0 ^ (d + 4) * (ess * (INR d + 2)) = 4 -> best_bandwidth d ess h0.
Proof.
  intros D E H0 Q. assert (P : 0 < INR d) by now apply lt_0_INR. split; [exact H0|]. intros h H N. rewrite !(error_scaled d ess h0) by assumption.
  apply Rmult_lt_compat_l. { apply Rdiv_lt_0_compat; [lra|]. apply Rmult_lt_0_compat; [exact E|now apply pow_lt]. }
  rewrite !(ratio_exp h0), (ratio_exp h h0) by assumption. replace (INR 4) with 4 by (cbn; lra). rewrite Rminus_diag_eq, !Rmult_0_r, exp_0 by reflexivity.
  assert (L : ln h0 - ln h <> 0). { intros Z. apply N, ln_inv; lra. }
  pose proof (exp_ineq1 (INR d * (ln h0 - ln h)) ltac:(intros Z; apply Rmult_integral in Z; lra)) as A.
  pose proof (exp_ineq1 (4 * (ln h - ln h0)) ltac:(lra)) as B. apply (Rmult_lt_compat_l (INR d / 4)) in B; [|lra]. lra.
Qed.

(** * C118 *)
(** Silverman's factor is the one bandwidth with the least asymptotic integrated error for normal samples. *)
Theorem C118_silverman_best : forall d ess, (0 < d)%nat -> 0 < ess -> best_bandwidth d ess (silverman d ess).
Proof. intros d ess D E. destruct (silverman_equation d ess E) as [A B]. now apply first_order_best. Qed.
Print Assumptions C118_silverman_best.

Lemma pow_lt_inv (a b : R) (m : nat) : 0 < a -> 0 < b -> a ^ m < b ^ m -> a < b.
Proof. intros A B L. destruct (Rlt_le_dec a b) as [|G]; [assumption|]. pose proof (pow_incr b a m ltac:(lra)). lra. Qed.
Lemma pow_increases (a b : R) (m : nat) : 0 < a -> a < b -> (0 < m)%nat -> a ^ m < b ^ m.
Proof.
  intros A L. induction m as [|m IH]; intros M; [lia|]. destruct m; [rewrite !pow_1; exact L|]. specialize (IH ltac:(lia)).
  change (a * a ^ S m < b * b ^ S m). pose proof (pow_lt a (S m) A). apply Rmult_gt_0_lt_compat; lra.
Qed.
(** Scott's factor is 1.059 times the power of the sample size alone: within a tenth of a percent of the best bandwidth in
    one dimension, 5.9 percent above it in two, and above it in every higher dimension. *)
Theorem C118_scott : forall d ess b, (0 < d)%nat -> 0 < ess -> best_bandwidth d ess b ->
  (scott d ess / 1.059) ^ (d + 4) * ess = 1 /\
  (d = 1%nat -> 0.999 * b < scott d ess < b) /\ (d = 2%nat -> scott d ess = 1.059 * b) /\ ((2 < d)%nat -> 1.059 * b < scott d ess).
Proof.
  intros d ess b D E B. assert (b = silverman d ess) as ->.
  { destruct (C118_silverman_best d ess D E) as [S1 S2]. destruct B as [B1 B2]. destruct (Req_dec b (silverman d ess)) as [|N]; [assumption|].
    specialize (S2 b B1 N). specialize (B2 (silverman d ess) S1 (not_eq_sym N)). lra. }
  destruct (silverman_equation d ess E) as [A1 A2]. destruct (scott_equation d ess E) as [C1 C2]. split; [exact C2|].
  set (s := silverman d ess) in *. set (c := scott d ess) in *. clearbody s c. split; [|split].
  - intros ->. cbn [Nat.add INR] in *. replace (1 + 2) with 3 in A2 by ring. set (r := c / 1.059) in *. assert (R0 : 0 < r) by (unfold r; lra). assert (Rc : c = 1.059 * r) by (unfold r; lra); rewrite Rc. clearbody r.
    assert (F : s ^ 5 = 4 / 3 * r ^ 5). { apply (Rmult_eq_reg_r (ess * 3)); [|lra]. rewrite A2. transitivity (4 * (r ^ 5 * ess)); [rewrite C2; ring|field]. }
    assert (P : 0 < r ^ 5) by now apply pow_lt. split; apply (pow_lt_inv _ _ 5); try lra; rewrite !Rpow_mult_distr, F; set (q := r ^ 5) in *; clearbody q; nra.
  - intros ->. cbn [Nat.add] in *. replace (INR 2 + 2) with 4 in A2 by (cbn; ring). set (r := c / 1.059) in *. assert (R0 : 0 < r) by (unfold r; lra). assert (Rc : c = 1.059 * r) by (unfold r; lra); rewrite Rc. clearbody r.
    f_equal. assert (F : s ^ 6 = r ^ 6). { apply (Rmult_eq_reg_r ess); [|lra]. rewrite C2. lra. }
    destruct (Rtotal_order r s) as [L|[L|L]]; [|exact L|]; exfalso; [pose proof (pow_increases r s 6)|pose proof (pow_increases s r 6)]; specialize (H ltac:(lra) L ltac:(lia)); lra.
  - intros D2. set (r := c / 1.059) in *. assert (R0 : 0 < r) by (unfold r; lra). assert (Rc : c = 1.059 * r) by (unfold r; lra); rewrite Rc. clearbody r.
    apply Rmult_lt_compat_l; [lra|]. apply (pow_lt_inv _ _ (d + 4)); try assumption. apply (Rmult_lt_reg_r ess); [exact E|]. rewrite C2.
    assert (G : 2 < INR d) by (change 2 with (INR 2); now apply lt_INR). set (q := s ^ (d + 4)) in *. assert (Q : 0 < q * ess) by (apply Rmult_lt_0_compat; [now apply pow_lt|exact E]).
    assert (q * ess * (INR d + 2) = 4) by (rewrite <- A2; ring). nra.
Qed.
Print Assumptions C118_scott.

(** Both factors fall as the number of effective samples grows. *)
Theorem C118_decreasing : forall d ess ess', 0 < ess < ess' -> silverman d ess' < silverman d ess /\ scott d ess' < scott d ess.
Proof.
  intros d ess ess' [E L]. pose proof (pos_INR d) as P. destruct (silverman_equation d ess E) as [A1 A2]. destruct (silverman_equation d ess' ltac:(lra)) as [B1 B2].
  destruct (scott_equation d ess E) as [C1 C2]. destruct (scott_equation d ess' ltac:(lra)) as [D1 D2]. split.
  - apply (pow_lt_inv _ _ (d + 4)); try assumption. set (a := silverman d ess ^ _) in *. assert (A : 0 < silverman d ess' ^ (d + 4)) by now apply pow_lt. set (b := silverman d ess' ^ _) in *.
    apply (Rmult_lt_reg_r (ess * (INR d + 2))); [apply Rmult_lt_0_compat; lra|]. rewrite A2, <- B2. apply Rmult_lt_compat_l; [exact A|]. apply Rmult_lt_compat_r; lra.
  - assert (Q : scott d ess' / 1.059 < scott d ess / 1.059); [|lra]. apply (pow_lt_inv _ _ (d + 4)); try lra. assert (A : 0 < (scott d ess' / 1.059) ^ (d + 4)) by (apply pow_lt; lra).
    apply (Rmult_lt_reg_r ess); [exact E|]. rewrite C2, <- D2. apply Rmult_lt_compat_l; assumption.
Qed.
Print Assumptions C118_decreasing.

(** In two dimensions with one effective sample the best bandwidth is one. *)
Example C118_nonvacuous : best_bandwidth 2 1 1 /\ best_bandwidth 2 1 (silverman 2 1) /\ scott 2 1 = 1.059.
Proof.
  assert (B : best_bandwidth 2 1 1) by (apply first_order_best; try lia; cbn; lra). split; [exact B|]. split; [apply C118_silverman_best; lra || lia|].
  destruct (C118_scott 2 1 1 ltac:(lia) ltac:(lra) B) as (_ & _ & Q & _). rewrite Q by reflexivity. ring.
Qed.
