(** Property C113 (pyfilter/inference/sequential: base.py, smc2.py, state.py, kernels/mh.py): SMC2 whose particles are rejuvenated
    whenever their effective sample size is low converges as the number of parameter particles grows. *)
From Coq Require Import Reals List Bool Arith Lia Lra.
From Coquelicot Require Import Rcomplements.
From Verif.Model Require Import Base Xf Weights Resampling Pmmh Sequential.
From Verif.Spec Require Import WeightsSpec ParticleSpec ResamplingSpec SequentialSpec UnbiasedSpec ConvergeSpec StationarySpec ProperSpec RejuvenateSpec ExactSpec FitConvergeSpec.
From Verif.Proofs Require Import ResamplingProofs WeightsProofs MomentsProofs SequentialProofs UnbiasedProofs UnbiasedFilter ConvergeProofs StationaryProofs ExactProofs FitConvergeProofs.
From Verif.Props Require Import ResamplingProps WeightsProps PmmhProps StationaryProps ProperProps RejuvenateProps ImportanceProps ResampleMeanProps ResampleErrorProps ExactProps.
From Verif.Spec Require Import StationarySpec RejuvenateSpec.
Import ListNotations.
Local Open Scope nat_scope.

(** Weighted sums over the final particles, times the mean weights at which they were rejuvenated; for [h] equal to one, the
    estimate of the evidence.  Their mean square distance from what the target says is at most a constant over the number of
    particles; the constant depends on bounds for the quantity, the likelihoods and the errors of resampling, and on the
    numbers of observations and of moves, but on nothing else; the thresholds for the effective sample size are arbitrary. *)
Theorem C113_evidence : forall gmax kappa C k n, (1 <= gmax)%R -> (0 <= kappa)%R -> (0 <= C)%R -> exists Kc : R,
  forall (T F Y K A Q U D : Type) (E : A -> (nat -> @block Q U D) -> env T F Y K) (LA : law A) (LQ : law Q) (LU : law U) (L : law D)
    rows init advance pick cand filt c B np rnd ys log_prior log_density (M : nat -> measure (T * (F * xf))) G H cbs base w0 h m,
  law_ok LA -> law_ok LQ -> law_ok LU -> law_ok L -> law_pos LQ -> law_pos L -> (forall j, measure_ok (M j)) ->
  targets LA LQ L rows init advance cand filt B (fun _ => true) ys log_prior log_density M G H -> fair_pick LU pick B ->
  separate_draws LA LQ LU L rows init advance pick cand filt B ys log_prior log_density M H gmax kappa ->
  0 < B -> (c_accept c <= 0)%R -> c_dist c = None -> c_steps c = k -> List.length ys = n ->
  possible L (uniforms B) base -> (forall j, supp (blocks LQ LU L B k base) (w0 j)) ->
  (forall a w, supp LA a -> (forall j, supp (blocks LQ LU L B k base) (w j)) ->
     fit_draws_at E init advance pick cand filt B np rnd k (rejuvenates (E a w) (Plain (SMC2 c)) cbs np rnd (rows a) ys) ys log_prior log_density a w) ->
  H n h -> (forall z, among (M n) z -> (Rabs (h z) <= C)%R) -> integral (M n) (fun z => target log_prior log_density z * h z)%R m ->
  at_most_fit LA LQ LU L B k ys base w0 (fun a w => square (whole_fit (E a w) (Plain (SMC2 c)) cbs np rnd (rows a) ys h - m)) (Kc / INR B).
Proof.
  intros gmax kappa C k n Hg Hk HC. exists (fit_bound (Smc2Cfg (fun _ => 0%R) k 0%R 0 None) gmax kappa C n).
  intros T F Y K A Q U D E LA LQ LU L rows init advance pick cand filt c B np rnd ys lp lq M G H cbs base w0 h m HA HQ HU HL PQ PL HM TG FP SD HB Hacc Hdist <- <- Pb Hw0 FD Hh Hb Hm.
  refine (adaptive_error E LA LQ LU L HA HQ HU HL PQ PL rows init advance pick cand filt c B np rnd ys lp lq cbs M G H TG HM FP HB Hacc Hdist gmax kappa Hg Hk SD base Pb h m C w0 HC _ Hw0 FD).
  now constructor.
Qed.
Print Assumptions C113_evidence.

(** The weighted mean over the parameters is the ratio of two such estimates. *)
Lemma mean_ratio {T F Y K A Q U D : Type} (E : A -> (nat -> @block Q U D) -> env T F Y K) (LA : law A) (LQ : law Q) (LU : law U) (L : law D)
    rows init advance pick cand filt c B np rnd ys lp lq (M : nat -> measure (T * (F * xf))) G H cbs gmax kappa a w (h : T -> R) C :
  targets LA LQ L rows init advance cand filt B (fun _ => true) ys lp lq M G H -> fair_pick LU pick B ->
  separate_draws LA LQ LU L rows init advance pick cand filt B ys lp lq M H gmax kappa -> (1 <= gmax)%R ->
  0 < B -> (c_accept c <= 0)%R -> c_dist c = None -> supp LA a -> (forall j, blk_ok LQ LU L B (w j)) ->
  fit_draws_at E init advance pick cand filt B np rnd (c_steps c) (rejuvenates (E a w) (Plain (SMC2 c)) cbs np rnd (rows a) ys) ys lp lq a w ->
  (forall z, among (M (List.length ys)) z -> (Rabs (h (fst z)) <= C)%R) ->
  let whole h := whole_fit (E a w) (Plain (SMC2 c)) cbs np rnd (rows a) ys h in let r := posterior_value (E a w) (SMC2 c) cbs np rnd (rows a) ys h in
  (whole (fun _ => 1%R) * r = whole (fun z => h (fst z)))%R /\ (Rabs r <= C)%R.
Proof.
  intros TG FP SD Hg HB Hacc Hdist Ha Hw FD HC whole r. pose proof (lt_0_INR B HB) as PB.
  pose proof (path_value E LA LQ LU L rows init advance pick cand filt c B np rnd ys lp lq cbs M G H TG FP HB Hacc Hdist a w Ha Hw FD) as PV.
  destruct (path_state E LA LQ LU L rows init advance pick cand filt c B np rnd ys lp lq cbs M G H TG FP HB Hacc Hdist a w Ha Hw FD) as (al & s & calls & Ef & Ec & Ew).
  pose proof (aafter_fine LA LQ LU L rows init advance pick cand filt c B np ys lp lq M G H TG FP HB gmax kappa Hg SD a w Ha Hw (List.length ys) (le_n _)) as [Gp Pz _].
  set (p := aafter _ _ _ _ _ _ _ _ _ _ _ _ _ _) in *. destruct (good_held B M HB (List.length ys) p Gp) as (z & Hz).
  destruct (normalised_entries (e_lowest (E a w)) (s_w s) B HB) as (q & arg & En & Ps & Hq).
  { rewrite Ew, map_length. apply Gp. }
  { unfold all_fin. rewrite Ew. apply Forall_forall. intros x Hx. apply in_map_iff in Hx as (y & <- & _). exact I. }
  assert (We : forall b, b < B -> weight_at (s_w s) b = exp (nth b (p_ws p) 0%R)).
  { intros b Hb. unfold weight_at. rewrite Ew, nth_error_map. destruct (nth_error (p_ws p) b) as [x|] eqn:Eb; [cbn; now rewrite (nth_of _ _ _ 0%R Eb)|]. apply nth_error_None in Eb. rewrite (gd_ws _ _ _ _ Gp) in Eb. lia. }
  assert (Er : r = (sum_below B (fun b => exp (nth b (p_ws p) 0) * h (fst (z b))) / sum_below B (fun b => exp (nth b (p_ws p) 0)))%R).
  { unfold r, posterior_value, normalized_weights. rewrite Ef, En, (fa_size _ _ _ _ _ _ _ _ _ _ _ _ _ _ _ _ FD). unfold Rdiv. rewrite <- MvnProofs.sb_scal_r. apply BackwardProofs.sb_ext. intros b Hb.
    rewrite (Hq b Hb), (We b Hb), (BackwardProofs.sb_ext B _ _ We). destruct Hz as (_ & _ & Hz). destruct (Hz b Hb) as (E1 & _ & _). unfold at_slot. rewrite Ec, E1. unfold Rdiv. ring. }
  rewrite (BackwardProofs.sb_ext B _ _ We) in Ps. set (e := sum_below B (fun b => exp (nth b (p_ws p) 0%R))) in *. set (f := sum_below B (fun b => exp (nth b (p_ws p) 0) * h (fst (z b)))%R) in *. split.
  - unfold whole. rewrite !PV, (V_z B M _ p z _ Hz), (V_z B M _ p z _ Hz), Er.
    replace (sumto B (fun b => p_z p / INR B * exp (nth b (p_ws p) 0) * 1))%R with (p_z p / INR B * e)%R by (unfold e; rewrite <- BackwardProofs.sb_scal; apply BackwardProofs.sb_ext; intros; ring).
    replace (sumto B (fun b => p_z p / INR B * exp (nth b (p_ws p) 0) * h (fst (z b))))%R with (p_z p / INR B * f)%R by (unfold f; rewrite <- BackwardProofs.sb_scal; apply BackwardProofs.sb_ext; intros; ring). field. split; lra.
  - rewrite Er. unfold Rdiv. rewrite Rabs_mult, (Rabs_right (/ e)) by (left; now apply Rinv_0_lt_compat). apply (Rmult_le_reg_r e); [exact Ps|]. rewrite Rmult_assoc, Rinv_l, Rmult_1_r by lra.
    assert (Hb : forall b, b < B -> (- C <= h (fst (z b)) <= C)%R) by (intros b Hb; apply Rabs_le_between, HC; now apply Hz).
    unfold e, f. rewrite <- BackwardProofs.sb_scal. apply Rabs_le. split.
    + apply Ropp_le_cancel. rewrite Ropp_involutive. replace (- sum_below B (fun b => exp (nth b (p_ws p) 0) * h (fst (z b))))%R with (sum_below B (fun b => -1 * (exp (nth b (p_ws p) 0) * h (fst (z b)))))%R by (rewrite BackwardProofs.sb_scal; ring).
      apply sumto_le. intros b Hb'. specialize (Hb b Hb'). pose proof (exp_pos (nth b (p_ws p) 0%R)). nra.
    + apply sumto_le. intros b Hb'. specialize (Hb b Hb'). pose proof (exp_pos (nth b (p_ws p) 0%R)). nra.
Qed.

(** Means of a bounded [h] over the parameters, with the normalised weights: the mean square distance from the posterior mean
    is at most a constant over the number of particles.  ([m / Z]: the mean of [h] under prior times likelihood.) *)
Theorem C113_posterior : forall gmax kappa C k n, (1 <= gmax)%R -> (0 <= kappa)%R -> (0 <= C)%R -> exists Kc : R,
  forall (T F Y K A Q U D : Type) (E : A -> (nat -> @block Q U D) -> env T F Y K) (LA : law A) (LQ : law Q) (LU : law U) (L : law D)
    rows init advance pick cand filt c B np rnd ys log_prior log_density (M : nat -> measure (T * (F * xf))) G H cbs base w0 (h : T -> R) m Z,
  law_ok LA -> law_ok LQ -> law_ok LU -> law_ok L -> law_pos LQ -> law_pos L -> (forall j, measure_ok (M j)) ->
  targets LA LQ L rows init advance cand filt B (fun _ => true) ys log_prior log_density M G H -> fair_pick LU pick B ->
  separate_draws LA LQ LU L rows init advance pick cand filt B ys log_prior log_density M H gmax kappa ->
  0 < B -> (c_accept c <= 0)%R -> c_dist c = None -> c_steps c = k -> List.length ys = n ->
  possible L (uniforms B) base -> (forall j, supp (blocks LQ LU L B k base) (w0 j)) ->
  (forall a w, supp LA a -> (forall j, supp (blocks LQ LU L B k base) (w j)) ->
     fit_draws_at E init advance pick cand filt B np rnd k (rejuvenates (E a w) (Plain (SMC2 c)) cbs np rnd (rows a) ys) ys log_prior log_density a w) ->
  H n (fun z => h (fst z)) -> H n (fun _ => 1%R) -> (forall z, among (M n) z -> (Rabs (h (fst z)) <= C)%R) ->
  integral (M n) (fun z => target log_prior log_density z * h (fst z))%R m -> integral (M n) (target log_prior log_density) Z -> (0 < Z)%R ->
  at_most_fit LA LQ LU L B k ys base w0 (fun a w => square (posterior_value (E a w) (SMC2 c) cbs np rnd (rows a) ys h - m / Z)) (Kc / (square Z * INR B)).
Proof.
  intros gmax kappa C k n Hg Hk HC. destruct (C113_evidence gmax kappa C k n Hg Hk HC) as (K1 & H1). destruct (C113_evidence gmax kappa 1 k n Hg Hk Rle_0_1) as (K2 & H2).
  exists (2 * (K1 + square C * K2))%R.
  intros T F Y K A Q U D E LA LQ LU L rows init advance pick cand filt c B np rnd ys lp lq M G H cbs base w0 h m Z HA HQ HU HL PQ PL HM TG FP SD HB Hacc Hdist Ek En Pb Hw0 FD Hh Ho Hb Hm HZ PZ.
  pose proof (lt_0_INR B HB) as PB. assert (PS : (0 < square Z)%R) by (unfold square; nra). assert (PI : (0 < / square Z)%R) by now apply Rinv_0_lt_compat.
  assert (E1 : at_most_fit LA LQ LU L B k ys base w0 (fun a w => square (whole_fit (E a w) (Plain (SMC2 c)) cbs np rnd (rows a) ys (fun z => h (fst z)) - m)) (K1 / INR B)) by (eapply H1; eassumption).
  assert (E2 : at_most_fit LA LQ LU L B k ys base w0 (fun a w => square (whole_fit (E a w) (Plain (SMC2 c)) cbs np rnd (rows a) ys (fun _ => 1%R) - Z)) (K2 / INR B)).
  { eapply H2; try eassumption; [intros; rewrite Rabs_R1; lra|]. refine (StationarySpec.integral_ext _ (HM n) _ _ _ _ HZ). intros z _. ring. }
  pose proof (square_nonneg C) as PC.
  refine (fit_weaken LQ LU L B k base Pb LA ys w0 Hw0 _ _ _ _ _ _ (fit_lin LQ LU L HQ HU HL B k base LA HA ys w0 _ _ _ _ (2 / square Z) (2 / square Z * square C) _ _ E1 E2)).
  - intros a w Ha Hw. subst k n. destruct (mean_ratio E LA LQ LU L rows init advance pick cand filt c B np rnd ys lp lq M G H cbs gmax kappa a w h C TG FP SD Hg HB Hacc Hdist Ha (fun j => bok_ok _ _ _ _ _ _ _ (Hw j)) (FD a w Ha Hw) Hb) as [Er Br].
    set (r := posterior_value _ _ _ _ _ _ _ _) in *. set (x := whole_fit _ _ _ _ _ _ _ (fun _ => 1%R)) in *. set (y := whole_fit _ _ _ _ _ _ _ (fun z => h (fst z))) in *. pose proof (square_abs _ _ Br) as Hr.
    assert (El : (r - m / Z)%R = (/ Z * ((y - m) + - r * (x - Z)))%R) by (rewrite <- Er; field; lra). rewrite El.
    replace (square (/ Z * (y - m + - r * (x - Z)))) with (/ square Z * square (y - m + - r * (x - Z)))%R by (unfold square; field; lra).
    pose proof (square_plus (y - m) (- r * (x - Z))) as Q1. replace (square (- r * (x - Z))) with (square r * square (x - Z))%R in Q1 by (unfold square; ring).
    pose proof (Rmult_le_compat_r _ _ _ (square_nonneg (x - Z)) Hr) as Q2.
    replace (2 / square Z * square (y - m) + 2 / square Z * square C * square (x - Z))%R with (/ square Z * (2 * square (y - m) + 2 * (square C * square (x - Z))))%R by (unfold Rdiv; ring).
    apply Rmult_le_compat_l; lra.
  - right. field. lra.
  - unfold Rdiv. lra.
  - apply Rmult_le_pos; [unfold Rdiv; lra|exact PC].
Qed.
Print Assumptions C113_posterior.
(** ... so that posterior means are off by [eps] or more with a probability that tends to zero. *)
Theorem C113_probability : forall gmax kappa C k n, (1 <= gmax)%R -> (0 <= kappa)%R -> (0 <= C)%R -> exists Kc : R,
  forall (T F Y K A Q U D : Type) (E : A -> (nat -> @block Q U D) -> env T F Y K) (LA : law A) (LQ : law Q) (LU : law U) (L : law D)
    rows init advance pick cand filt c B np rnd ys log_prior log_density (M : nat -> measure (T * (F * xf))) G H cbs base w0 (h : T -> R) m Z eps,
  law_ok LA -> law_ok LQ -> law_ok LU -> law_ok L -> law_pos LQ -> law_pos L -> (forall j, measure_ok (M j)) ->
  targets LA LQ L rows init advance cand filt B (fun _ => true) ys log_prior log_density M G H -> fair_pick LU pick B ->
  separate_draws LA LQ LU L rows init advance pick cand filt B ys log_prior log_density M H gmax kappa ->
  0 < B -> (c_accept c <= 0)%R -> c_dist c = None -> c_steps c = k -> List.length ys = n ->
  possible L (uniforms B) base -> (forall j, supp (blocks LQ LU L B k base) (w0 j)) ->
  (forall a w, supp LA a -> (forall j, supp (blocks LQ LU L B k base) (w j)) ->
     fit_draws_at E init advance pick cand filt B np rnd k (rejuvenates (E a w) (Plain (SMC2 c)) cbs np rnd (rows a) ys) ys log_prior log_density a w) ->
  H n (fun z => h (fst z)) -> H n (fun _ => 1%R) -> (forall z, among (M n) z -> (Rabs (h (fst z)) <= C)%R) ->
  integral (M n) (fun z => target log_prior log_density z * h (fst z))%R m -> integral (M n) (target log_prior log_density) Z -> (0 < Z)%R -> (0 < eps)%R ->
  at_most_fit LA LQ LU L B k ys base w0 (fun a w => if Rle_dec eps (Rabs (posterior_value (E a w) (SMC2 c) cbs np rnd (rows a) ys h - m / Z)) then 1 else 0)%R
    (Kc / (square eps * square Z * INR B)).
Proof.
  intros gmax kappa C k n Hg Hk HC. destruct (C113_posterior gmax kappa C k n Hg Hk HC) as (Kc & H1). exists Kc.
  intros T F Y K A Q U D E LA LQ LU L rows init advance pick cand filt c B np rnd ys lp lq M G H cbs base w0 h m Z eps HA HQ HU HL PQ PL HM TG FP SD HB Hacc Hdist Ek En Pb Hw0 FD Hh Ho Hb Hm HZ PZ Pe.
  pose proof (lt_0_INR B HB) as PB. assert (PS : (0 < square Z)%R) by (unfold square; nra). assert (Ps : (0 < square eps)%R) by (unfold square; nra). assert (PI : (0 < / square eps)%R) by now apply Rinv_0_lt_compat.
  assert (E1 : at_most_fit LA LQ LU L B k ys base w0 (fun a w => square (posterior_value (E a w) (SMC2 c) cbs np rnd (rows a) ys h - m / Z)) (Kc / (square Z * INR B))) by (eapply H1; eassumption).
  refine (fit_weaken LQ LU L B k base Pb LA ys w0 Hw0 _ _ _ _ _ _ (fit_lin LQ LU L HQ HU HL B k base LA HA ys w0 _ _ _ _ (/ square eps) 0 _ _ E1 E1)); [|right; field; lra|lra|lra].
  intros a w Ha Hw. set (z := (posterior_value _ _ _ _ _ _ _ _ - m / Z)%R). pose proof (square_nonneg z) as P. destruct (Rle_dec eps _) as [Q1|Q1]; [|nra].
  assert (square eps <= square z)%R by (unfold square in *; rewrite <- (Rabs_right (z * z)) by (apply Rle_ge; exact P); rewrite Rabs_mult; nra).
  replace 1%R with (/ square eps * square eps)%R at 1 by (field; lra). nra.
Qed.
Print Assumptions C113_probability.

(** Multinomial resampling (pyfilter/resampling.py:55-65), drawn by inversion of independent uniform numbers, is as required. *)
Definition many_pick (lowest : R) (u : nat -> R) (p : list xf) : list nat := selected1 (multinomial lowest (fun _ => inverted u) (W1 p) true).
Definition many_uniform (B : nat) : law (nat -> R) := independent uniform B (fun _ => (/ 2)%R).
Lemma half_supp : forall k : nat, supp uniform (/ 2)%R. Proof. intros. cbn. lra. Qed.
Lemma many_uniform_ok B : law_ok (many_uniform B). Proof. apply independent_ok; [exact uniform_ok|exact half_supp]. Qed.
Lemma many_pick_is lowest u p : p <> [] -> many_pick lowest u (map Fin p) = map (fun k => chosen (map Fin p) (u k)) (seq 0 (List.length p)).
Proof. intros Hp. unfold many_pick, multinomial, wrapper, multinomial_rows, inverted. cbn [bind]. rewrite map_length. reflexivity. Qed.
Lemma copies_sum i l : INR (copies i l) = Rsum (map (fun j => if j =? i then 1%R else 0%R) l).
Proof.
  unfold copies, Rsum. induction l as [|j l IH]; [reflexivity|]. cbn [count_occ map fold_right]. destruct (Nat.eq_dec j i) as [->|N].
  - rewrite Nat.eqb_refl, S_INR, IH. ring.
  - apply Nat.eqb_neq in N. rewrite N, IH. ring.
Qed.
Theorem C113_multinomial : forall lowest B, 0 < B -> fair_pick (many_uniform B) (many_pick lowest) B /\
  forall p f C, prob_vec p -> List.length p = B -> (forall i, i < B -> (Rabs (f i) <= C)%R) ->
    at_most (many_uniform B) (fun u => square (/ INR B * Rsum (map f (many_pick lowest u (map Fin p))) - sum_below B (fun i => nth i p 0 * f i)))%R (1 * square C / INR B)%R.
Proof.
  intros lowest B HB. pose proof (lt_0_INR B HB) as PB. pose proof (many_uniform_ok B) as HU. split; [split|].
  - intros u p Hu Pp Lp. assert (Np : p <> []) by now apply prob_vec_nonempty. rewrite (many_pick_is lowest u p Np), map_length, seq_length. split; [exact Lp|]. apply Forall_forall. intros i Hi. apply in_map_iff in Hi as (k & <- & _).
    rewrite <- Lp, <- (map_length Fin p). apply chosen_lt; [destruct p; [congruence|discriminate]|]. pose proof (proj1 (supp_independent _ _ _ _) Hu k) as X. cbn in X. lra.
  - intros p i Pp Lp Hi. assert (Np : p <> []) by now apply prob_vec_nonempty.
    assert (C1 : averages uniform (fun a => if chosen (map Fin p) a =? i then 1 else 0)%R (nth i p 0%R)).
    { pose proof (chosen_mean p (fun j => if j =? i then 1 else 0)%R (proj1 Pp) ltac:(rewrite (proj2 Pp); lra)) as X. rewrite share_self in X by exact Pp. refine (eq_rect _ (averages uniform _) X _ _).
      rewrite Lp. rewrite <- (sumto_single B i (fun k => nth k p 0%R) Hi). apply sumto_ext. intros j _. destruct (Nat.eq_dec i j) as [->|N]; [rewrite Nat.eqb_refl; ring|].
      replace (j =? i) with false by (symmetry; apply Nat.eqb_neq; congruence). ring. }
    assert (C2 : forall k, In k (seq 0 B) -> averages (many_uniform B) (fun u => if chosen (map Fin p) (u k) =? i then 1 else 0)%R (nth i p 0%R)).
    { intros k Hk. apply in_seq in Hk. apply (independent_one uniform uniform_ok _ half_supp B k _ _ C1). lia. }
    pose proof (averages_sum _ HU (seq 0 B) (fun k u => if chosen (map Fin p) (u k) =? i then 1 else 0)%R (fun _ => nth i p 0%R) C2) as X.
    refine (eq_rect _ (averages _ _) (averages_ext _ HU _ _ _ _ X) _ _).
    + intros u _. cbn beta. rewrite (many_pick_is lowest u p Np), Lp, copies_sum, map_map. reflexivity.
    + apply sumto_const.
  - intros p f C Pp Lp Hf. pose proof (C95_multinomial lowest _ (many_uniform B) inverted p f HU) as X. rewrite Lp in X. specialize (X (inverted_independent B B (le_n B)) Pp).
    refine (at_most_weaken _ _ _ _ _ _ (at_most_of _ _ _ X) _).
    + intros u _. right. unfold error_of. rewrite Lp. reflexivity.
    + rewrite Rmult_1_l. unfold Rdiv. apply Rmult_le_compat_r; [left; now apply Rinv_0_lt_compat|]. apply variance_bound; [exact Pp|]. now rewrite Lp.
Qed.
Print Assumptions C113_multinomial.

(** Residual resampling is as required, too. *)
Definition residual_pick (lowest : R) (u : nat -> R) (p : list xf) : list nat := selected1 (residual lowest (inverted u) (W1 p) true).
Lemma residual_shape lowest draw (w : list R) : prob_vec w ->
  (forall p m, (forall x, In x p -> (0 <= x)%R) -> (0 < Rsum p)%R -> List.length p = List.length w -> m <= List.length w ->
     exists l, draw (map Fin p) m = Ok l /\ List.length l = m /\ forall i, In i l -> i < List.length w) ->
  let out := selected1 (residual lowest draw (W1 (map Fin w)) true) in List.length out = List.length w /\ Forall (fun i => i < List.length w) out.
Proof.
  intros Hw Hd. cbn zeta. set (n := List.length w).
  assert (Hne : w <> []) by now apply prob_vec_nonempty.
  assert (Hn : (0 < INR n)%R) by (apply lt_0_INR; unfold n; destruct w; [congruence|simpl; lia]).
  set (mw := map (fun x => INR n * x)%R w). set (fl := map Int_part mw). set (num := fold_right Z.add 0%Z fl).
  assert (Hmw : forall x, In x mw -> (0 <= x)%R).
  { intros x Hx. apply in_map_iff in Hx. destruct Hx as (y & <- & Hy). apply Rmult_le_pos; [lra|]. now apply (proj1 Hw). }
  assert (Hfl : forall z, In z fl -> (0 <= z)%Z).
  { intros z Hz. apply in_map_iff in Hz. destruct Hz as (y & <- & Hy). apply Int_part_floor. now apply Hmw. }
  assert (Hsum : Rsum mw = INR n) by (unfold mw; rewrite (Rsum_map_scale (fun x => x)), map_id, (proj2 Hw); lra).
  destruct (Rsum_le_INR mw Hmw Hfl) as [B1 B2]. fold fl in B1, B2. fold num in B1, B2.
  assert (Hmwne : mw <> []) by (unfold mw; intros H; apply map_eq_nil in H; congruence).
  specialize (B2 Hmwne). rewrite Hsum in B1, B2.
  assert (Elen : List.length mw = n) by (unfold mw; apply map_length). rewrite Elen in B2.
  rewrite INR_IZR_INZ in B1. apply le_IZR in B1.
  assert (Hpos : (0 < num)%Z) by (apply lt_IZR; lra).
  destruct (repeat_interleave_spec (map Z.to_nat fl) 0) as (L1 & L2 & _).
  assert (Lfl : List.length (map Z.to_nat fl) = n) by (unfold fl; now rewrite !map_length).
  set (fixed := repeat_interleave 0 (map Z.to_nat fl)) in *.
  assert (Lf : List.length fixed = Z.to_nat num).
  { rewrite L1. unfold num. clear - Hfl. induction fl as [|z l IH]; [reflexivity|]. cbn [map fold_right]. rewrite IH by (intros; apply Hfl; now right).
    assert (0 <= fold_right Z.add 0 l)%Z by (clear IH; induction l as [|y l IH]; [reflexivity|]; cbn [fold_right]; pose proof (Hfl y ltac:(right; now left)); assert (0 <= fold_right Z.add 0 l)%Z by (apply IH; intros q [->|Q]; apply Hfl; [now left|right; now right]); lia).
    pose proof (Hfl z ltac:(now left)). rewrite Z2Nat.inj_add by lia. reflexivity. }
  assert (Ff : Forall (fun i => i < n) fixed) by (apply Forall_forall; intros i Hi; apply L2 in Hi; lia).
  assert (E : selected1 (residual lowest draw (W1 (map Fin w)) true) =
    if (num =? Z.of_nat n)%Z then fixed
    else match draw (map Fin (map (fun x => (x - IZR (Int_part x)) / IZR num)%R mw)) (n - Z.to_nat num)%nat with Ok extra => fixed ++ extra | Raise _ => [] end).
  { unfold residual, wrapper, residual_rows. cbn [bind]. rewrite finite_row_fin. unfold residual_row. fold n. fold mw. fold fl. fold num.
    replace (existsb (fun z => (z <? 0)%Z) fl) with false.
    2: { symmetry. destruct (existsb _ fl) eqn:Ee; [|reflexivity]. apply existsb_exists in Ee. destruct Ee as (z & Hz & Ez). apply Z.ltb_lt in Ez. apply Hfl in Hz. lia. }
    destruct (Z.of_nat n <? num)%Z eqn:E2; [apply Z.ltb_lt in E2; lia|].
    destruct (num =? Z.of_nat n)%Z; [reflexivity|]. destruct (num =? 0)%Z eqn:E4; [apply Z.eqb_eq in E4; lia|].
    rewrite map_map. destruct (draw _ _); reflexivity. }
  rewrite E. destruct (num =? Z.of_nat n)%Z eqn:E3; [apply Z.eqb_eq in E3; split; [lia|exact Ff]|]. apply Z.eqb_neq in E3.
  set (p := map (fun x => (x - IZR (Int_part x)) / IZR num)%R mw) in *.
  assert (Hnp : (0 < IZR num)%R) by (apply IZR_lt; lia).
  assert (Hlt : (IZR num < INR n)%R) by (rewrite INR_IZR_INZ; apply IZR_lt; lia).
  destruct (Hd p (n - Z.to_nat num)) as (l & -> & Ll & Fl).
  - intros x Hx. apply in_map_iff in Hx. destruct Hx as (y & <- & Hy). destruct (base_Int_part y). apply Rmult_le_pos; [lra|]. left. now apply Rinv_0_lt_compat.
  - unfold p. rewrite fraction_sum. fold fl. fold num. rewrite Hsum. apply Rmult_lt_0_compat; [lra|now apply Rinv_0_lt_compat].
  - unfold p. rewrite map_length. exact Elen.
  - fold n. lia.
  - rewrite app_length, Lf, Ll. split; [lia|]. apply Forall_app. split; [exact Ff|]. apply Forall_forall. exact Fl.
Qed.
Lemma inverted_fair B : fair_multinomial (many_uniform B) B inverted.
Proof.
  intros p m i Hp Hs Lp Hm Hi. split; [intros u _; eexists; reflexivity|]. pose proof (many_uniform_ok B) as HU.
  assert (C1 : averages uniform (fun a => if chosen (map Fin p) a =? i then 1 else 0)%R (nth i p 0 / Rsum p)%R).
  { pose proof (chosen_mean p (fun j => if j =? i then 1 else 0)%R Hp Hs) as X. refine (eq_rect _ (averages uniform _) X _ _).
    assert (Es : (nth i p 0 / Rsum p)%R = nth i (share p) 0%R) by (unfold share; symmetry; apply (nth_map' (fun x => x / Rsum p)%R); now rewrite Lp). rewrite Es, Lp.
    rewrite <- (sumto_single B i (fun k => nth k (share p) 0%R) Hi). apply sumto_ext. intros j _. destruct (Nat.eq_dec i j) as [->|N]; [rewrite Nat.eqb_refl; ring|].
    replace (j =? i) with false by (symmetry; apply Nat.eqb_neq; congruence). ring. }
  assert (C2 : forall k, In k (seq 0 m) -> averages (many_uniform B) (fun u => if chosen (map Fin p) (u k) =? i then 1 else 0)%R (nth i p 0 / Rsum p)%R).
  { intros k Hk. apply in_seq in Hk. apply (independent_one uniform uniform_ok _ half_supp B k _ _ C1). lia. }
  pose proof (averages_sum _ HU (seq 0 m) (fun k u => if chosen (map Fin p) (u k) =? i then 1 else 0)%R (fun _ => nth i p 0 / Rsum p)%R C2) as X.
  refine (eq_rect _ (averages _ _) (averages_ext _ HU _ _ _ _ X) _ _).
  - intros u _. cbn beta. unfold inverted. cbn [row]. rewrite copies_sum, map_map. reflexivity.
  - apply sumto_const.
Qed.
Theorem C113_residual : forall lowest B, 0 < B -> fair_pick (many_uniform B) (residual_pick lowest) B /\
  forall p f C, prob_vec p -> List.length p = B -> (forall i, i < B -> (Rabs (f i) <= C)%R) ->
    at_most (many_uniform B) (fun u => square (/ INR B * Rsum (map f (residual_pick lowest u (map Fin p))) - sum_below B (fun i => nth i p 0 * f i)))%R (1 * square C / INR B)%R.
Proof.
  intros lowest B HB. pose proof (many_uniform_ok B) as HU. split; [split|].
  - intros u p Hu Pp Lp. rewrite <- Lp. apply residual_shape; [exact Pp|]. intros q m Hq Hs Lq Hm. rewrite Lp in *.
    destruct (inverted_independent B B (le_n B) q m (fun _ => 0%R) Hq Hs Lq Hm) as [Hok _]. exact (Hok u Hu).
  - intros p i Pp Lp Hi. rewrite <- Lp in Hi |- *. apply C85_residual; [now rewrite Lp|rewrite Lp; apply inverted_fair|exact Pp|exact Hi].
  - intros p f C Pp Lp Hf. destruct (C95_residual lowest _ (many_uniform B) inverted p f C HU) as (v & Av & Bv); [rewrite Lp; now apply inverted_independent|exact Pp|now rewrite Lp|].
    refine (at_most_weaken _ _ _ _ _ _ (at_most_of _ _ _ Av) _).
    + intros u _. right. unfold error_of. rewrite Lp. reflexivity.
    + rewrite Rmult_1_l. now rewrite Lp in Bv.
Qed.
Print Assumptions C113_residual.


(** * An example *)
(** As for C112_adaptive_refuted, with any number [B] of particles and multinomial resampling: prior and candidates are
    parameter 1 with chance 1/3, one observation with likelihood 1 or 3, rejuvenation if the effective sample size is below 90%. *)
Definition flip : law nat := finite [(0, (2 / 3)%R); (1, (1 / 3)%R)].
Definition flips (B : nat) : law (nat -> nat) := independent flip B (fun _ => 0).
Definition many_rows (B : nat) (a : nat -> nat) : list nat := map a (seq 0 B).
Definition many_filt (d : nat -> nat) (b t : nat) : nat * xf := (1, Fin (0 + ln (ess_like t))%R).
Definition many_cand (d : nat -> nat) (b : nat) : nat := d b.
Notation many_block := (@block unit (nat -> R) (nat -> nat)).
Definition many_env (B : nat) (a : nat -> nat) (w : nat -> many_block) : env nat nat unit unit :=
  let moves r := snd (snd (w 0)) ((r - 4) / 4) in
  Env nat nat unit unit (-1000)%R B (fun r np b built now => 0) (fun r np b built now y f => ess_advance tt b now y f)
    (fun r p => many_pick (-1000) (fst (snd (w 0))) p) (fun r rows w idx => rows) (fun r => repeat true B)
    (fun rows w fs => tt) (fun k rows => map (fun t => Fin (ess_density t)) rows) (fun k k' m => tt) (fun r k => map (many_cand (fst (moves r))) (seq 0 B)) (fun r => snd (moves r)) (fun t => Fin (ess_density t)) (fun a b => 0%R).
Lemma flip_ok : law_ok flip. Proof. apply finite_ok. unfold Rsum. cbn. lra. Qed.
Lemma flip_base : forall k : nat, supp flip 0. Proof. intros _. exists (2 / 3)%R. now left. Qed.
Lemma flips_ok B : law_ok (flips B). Proof. apply independent_ok; [exact flip_ok|exact flip_base]. Qed.
Lemma flips_pos B : law_pos (flips B).
Proof. apply independent_pos; [exact flip_base|]. apply finite_pos. intros q [<-|[<-|[]]]; cbn; lra. Qed.
Lemma flip_mean (f : nat -> R) : averages flip f (2 / 3 * f 0%nat + 1 / 3 * f 1%nat)%R.
Proof. split; [exact I|]. unfold flip. cbn [finite mean map fold_right fst snd]. ring. Qed.
Lemma flips_one B b (f : nat -> R) : b < B -> averages (flips B) (fun d => f (d b)) (2 / 3 * f 0%nat + 1 / 3 * f 1%nat)%R.
Proof. intros Hb. exact (independent_one flip flip_ok _ flip_base B b f _ (flip_mean f) Hb). Qed.
Lemma flips_two B b b' (f g : nat -> R) : b < b' -> b' < B -> averages (flips B) (fun d => f (d b) * g (d b'))%R ((2 / 3 * f 0%nat + 1 / 3 * f 1%nat) * (2 / 3 * g 0%nat + 1 / 3 * g 1%nat))%R.
Proof. intros H1 H2. exact (independent_two flip flip_ok _ flip_base B b b' f g _ _ H1 H2 (flip_mean f) (flip_mean g)). Qed.
Lemma flips_supp B d b : supp (flips B) d -> d b = 0 \/ d b = 1.
Proof. intros Hd. destruct (proj1 (supp_independent _ _ _ _) Hd b) as (p & [X|[X|[]]]); injection X as <- _; auto. Qed.
Lemma many_rows_nth B a b : b < B -> nth_error (many_rows B a) b = Some (a b).
Proof. intros Hb. unfold many_rows. now apply nth_error_seq_map. Qed.
Lemma many_draws B sched : fit_draws (many_env B) (fun _ _ _ => 0) ess_advance (many_pick (-1000)) many_cand (fun _ => many_filt) B 100 0 1 sched [tt] ess_prior ess_density.
Proof.
  assert (Q : forall i r, r < 4 -> (4 + i * 4 + r - 4) / 4 = i) by (intros i r Hr; replace (4 + i * 4 + r - 4) with (r + i * 4) by lia; rewrite Nat.div_add by lia; now rewrite Nat.div_small).
  constructor; try reflexivity.
  intros a w j q Hj Sj. cbn [List.length] in Hj. assert (j = 0) as -> by lia. cbn [position firstn]. constructor; try reflexivity; intros u m i; unfold many_env, set_at; cbn [Nat.eqb fst snd].
  - intros k0. cbn [e_sample List.length]. replace (1 + 1 + 2 + i * (3 + 1)) with (4 + i * 4 + 0) by lia. now rewrite Q by lia.
  - cbn [e_uniforms List.length]. replace (1 + 1 + 2 + i * (3 + 1) + 2 + 1) with (4 + i * 4 + 3) by lia. now rewrite Q by lia.
Qed.
Lemma flip_points : forall z, among (ess_points 1) z <-> z = ess_point 0 \/ z = ess_point 1.
Proof. intros z. cbn [ess_points among summing]. split; [intros (p & [X|[X|[]]]); injection X as <- _; auto|intros [->| ->]; eexists; [left|right; left]; reflexivity]. Qed.
Lemma start_points : forall z, among (ess_points 0) z <-> z = duo_start 0 \/ z = duo_start 1.
Proof. intros z. cbn [ess_points among summing]. split; [intros (p & [X|[X|[]]]); injection X as <- _; auto|intros [->| ->]; eexists; [left|right; left]; reflexivity]. Qed.
Lemma many_mean B (f : nat * (nat * xf) -> R) z : 0 < B -> mean (flips B) (fun d => f (proposed many_cand many_filt 0 d z)) = (2 / 3 * f (ess_point 0) + 1 / 3 * f (ess_point 1))%R.
Proof. intros HB. apply (flips_one B 0 (fun t => f (ess_point t)) HB). Qed.
Lemma many_start B a b (h : nat * (nat * xf) -> R) : b < B -> at_slot (many_rows B a) b (fun t => h (t, (0, Fin 0))) = h (duo_start (a b)).
Proof. intros Hb. unfold at_slot. now rewrite many_rows_nth. Qed.
Lemma many_start_mean (h : nat * (nat * xf) -> R) m : integral (ess_points 0) (fun z => target ess_prior ess_density z * h z)%R m -> m = (2 / 3 * h (duo_start 0) + 1 / 3 * h (duo_start 1))%R.
Proof. intros <-. unfold target, posterior. cbn [integral ess_points summing map fold_right fst snd duo_start xsub xopp xadd mass]. fold (duo_start 0). fold (duo_start 1). rewrite !Rplus_opp_r, !exp_0. ring. Qed.
Lemma many_targets B : 0 < B -> targets (flips B) ess_unit (flips B) (many_rows B) (fun _ _ _ => 0) ess_advance many_cand (fun _ => many_filt) B (fun _ => true) [tt] ess_prior ess_density ess_points (fun _ _ => True) (fun _ _ => True).
Proof.
  intros HB. constructor.
  - intros h m _ Hm. rewrite (many_start_mean h m Hm). pose proof (lt_0_INR B HB) as PB.
    pose proof (averages_sum _ (flips_ok B) (seq 0 B) (fun b a => at_slot (many_rows B a) b (fun t => h (t, (0, Fin 0)))) (fun _ => (2 / 3 * h (duo_start 0) + 1 / 3 * h (duo_start 1))%R)) as X.
    refine (eq_rect _ (averages _ _) (averages_scal _ (flips_ok B) (/ INR B) _ _ (X _)) _ _).
    + intros b Hb. apply in_seq in Hb. refine (averages_ext _ (flips_ok B) _ _ _ _ (flips_one B b (fun t => h (duo_start t)) ltac:(lia))). intros a _. symmetry. apply many_start. lia.
    + change (/ INR B * sumto B (fun _ => 2 / 3 * h (duo_start 0) + 1 / 3 * h (duo_start 1)) = 2 / 3 * h (duo_start 0) + 1 / 3 * h (duo_start 1))%R. rewrite sumto_const. field. lra.
  - intros a Ha. split; [unfold many_rows; now rewrite map_length, seq_length|]. intros b t Et. apply start_points.
    assert (Hb : b < B) by (apply (in_range _ _ _) in Et; unfold many_rows in Et; now rewrite map_length, seq_length in Et). rewrite many_rows_nth in Et by exact Hb. injection Et as <-. destruct (flips_supp B a b Ha) as [->| ->]; auto.
  - exact (tg_step _ _ _ _ _ _ _ _ _ _ _ _ _ _ _ _ (ess_targets (fun _ => true))).
  - intros j y z q b Ey Hz Hq Hb. split; [|exact I]. destruct y. destruct j as [|j]; [|destruct j; discriminate]. apply start_points in Hz. apply flip_points. destruct Hz as [->| ->]; auto.
  - intros j y h Ey _. split; [exact I|]. intros z b Hz Hb. split; [exact I|reflexivity].
  - intros j z Hz. split; [exact I|]. destruct j as [|j]; destruct Hz as (p & [X|[X|[]]]); injection X as <- _; exact I.
  - intros j _ b g m Hb Hm. pose proof (averages_unique _ _ _ _ Hm (flips_one B 0 (fun t => g (ess_point t)) HB)) as ->. exact (flips_one B b (fun t => g (ess_point t)) Hb).
  - intros j b d z Sj _ Hd _. change (among (ess_points 1) (ess_point (d b))). apply flip_points. destruct (flips_supp B d b Hd) as [->| ->]; auto.
  - intros j Sj g m m' _ [_ H1] [_ H2]. cbn [integral ess_points summing map fold_right fst snd] in H1, H2.
    rewrite !(many_mean B (fun z' => g _ z') _ HB) in H1. rewrite (many_mean B (fun z' => g z' (ess_point 0)) _ HB), (many_mean B (fun z' => g z' (ess_point 1)) _ HB) in H2. lra.
  - intros j b Sj Hb. assert (Dm : forall f : nat * (nat * xf) -> R, dom (flips B) (fun d => f (ess_point (d b)))) by (intros f; exact (proj1 (flips_one B b (fun t => f (ess_point t)) Hb))).
    constructor; [now intros| | | |intros; exact I].
    + intros h _ z _. exact (Dm (moved (target ess_prior ess_density) h z)).
    + intros h _. eexists. split; [intros z _; exact (Dm (fun z' => Rmin (target ess_prior ess_density z) (target ess_prior ess_density z') * h z')%R)|reflexivity].
    + intros h _. eexists. split; [intros z _; exact (Dm (fun z' => Rmin (target ess_prior ess_density z) (target ess_prior ess_density z') * h z)%R)|reflexivity].
Qed.
Lemma many_separate B : 0 < B -> separate_draws (flips B) ess_unit (many_uniform B) (flips B) (many_rows B) (fun _ _ _ => 0) ess_advance (many_pick (-1000)) many_cand (fun _ => many_filt) B [tt] ess_prior ess_density ess_points (fun _ _ => True) 3 1.
Proof.
  intros HB. constructor.
  - intros j y z q b _ _ _ _. unfold gain, ess_advance. cbn [fst snd mass]. rewrite exp_ln; destruct (fst z); cbn; lra.
  - intros h m _ Hm. rewrite (many_start_mean h m Hm). split.
    + intros b Hb. refine (averages_ext _ (flips_ok B) _ _ _ _ (flips_one B b (fun t => h (duo_start t)) Hb)). intros a _. symmetry. now apply many_start.
    + intros b b' H1 H2. refine (averages_ext _ (flips_ok B) _ _ _ _ (flips_two B b b' (fun t => h (duo_start t)) (fun t => h (duo_start t)) H1 H2)). intros a _. cbn beta. rewrite !many_start by lia. reflexivity.
  - intros j y h z z' b b' _ _ _ _ _ _. split; [exact I|]. unfold future, ess_unit. cbn [finite mean map fold_right fst snd]. unfold gain, advanced, ess_advance. ring.
  - intros j h z z' b b' _ _ _ _ H1 H2. rewrite (many_mean B (moved (target ess_prior ess_density) h z) z HB), (many_mean B (moved (target ess_prior ess_density) h z') z' HB).
    exact (flips_two B b b' (fun t => moved (target ess_prior ess_density) h z (ess_point t)) (fun t => moved (target ess_prior ess_density) h z' (ess_point t)) H1 H2).
  - exact (proj2 (C113_multinomial (-1000) B HB)).
Qed.
Definition many_moves (B : nat) : @stream (nat -> nat) (list R) := fun _ => (fun _ => 0, map (fun _ => (/ 2)%R) (seq 0 B)).
Definition many_base (B : nat) : nat -> many_block := fun _ => (tt, (fun _ => (/ 2)%R, many_moves B)).
Example C113_nonvacuous : exists Kc, forall B cbs, 0 < B ->
  at_most_fit (flips B) ess_unit (many_uniform B) (flips B) B 1 [tt] (many_moves B) (many_base B)
    (fun a w => square (posterior_value (many_env B a w) (SMC2 ess_cfg) cbs 100 0 (many_rows B a) [tt] INR - 3 / 5)) (Kc / INR B).
Proof.
  destruct (C113_posterior 3 1 1 1 1 ltac:(lra) ltac:(lra) ltac:(lra)) as (Kc & X). exists (Kc / square (5 / 3))%R. intros B cbs HB. pose proof (lt_0_INR B HB) as PB.
  assert (Pm : possible (flips B) (uniforms B) (many_moves B)).
  { intros i. split; [apply supp_independent; intros; apply flip_base; exact 0|]. exists (fun _ => (/ 2)%R). split; [apply supp_independent; exact half_supp|reflexivity]. }
  specialize (X nat nat unit unit (nat -> nat) unit (nat -> R) (nat -> nat) (many_env B) (flips B) ess_unit (many_uniform B) (flips B) (many_rows B) (fun _ _ _ => 0) ess_advance (many_pick (-1000)) many_cand (fun _ => many_filt) ess_cfg B 100 0 [tt] ess_prior ess_density
    ess_points (fun _ _ => True) (fun _ _ => True) cbs (many_moves B) (many_base B) INR 1%R (5 / 3)%R (flips_ok B) ess_unit_ok (many_uniform_ok B) (flips_ok B)).
  assert (Z : square (5 / 3) <> 0%R) by (unfold square; lra).
  replace (Kc / square (5 / 3) / INR B)%R with (Kc / (square (5 / 3) * INR B))%R by (field; lra). replace (3 / 5)%R with (1 / (5 / 3))%R by lra. apply X; clear X; try reflexivity; try exact I.
  - apply finite_pos. intros q [<-|[]]. cbn. lra.
  - apply flips_pos.
  - intros [|j]; apply summing_ok.
  - now apply many_targets.
  - exact (proj1 (C113_multinomial (-1000) B HB)).
  - now apply many_separate.
  - exact HB.
  - cbn. lra.
  - exact Pm.
  - intros j. split; [exists 1%R; now left|]. split; [apply supp_independent; exact half_supp|exact Pm].
  - intros a w _ _. apply (drawn_all _ _ _ _ _ _ ess_cfg _ _ _ _ _ _ _ (many_draws B _)).
  - intros z Hz. apply flip_points in Hz as [->| ->]; cbn; rewrite ?Rabs_R0, ?Rabs_R1; lra.
  - cbn [ess_points integral summing map fold_right fst snd]. rewrite (ess_target 0), (ess_target 1) by lia. cbn. field.
  - cbn [ess_points integral summing map fold_right fst snd]. rewrite (ess_target 0), (ess_target 1) by lia. cbn. field.
  - lra.
Qed.
Print Assumptions C113_nonvacuous.
