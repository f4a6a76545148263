(** C116: get_filter_mean_and_variance in floating point arithmetic. *)
From Coq Require Import ZArith Reals List Bool Lia Lra.
From Flocq Require Import Core.Core IEEE754.BinarySingleNaN.
From Coquelicot Require Import Rcomplements.
From Verif.Model Require Import Base FloatResampling FloatMoments.
From Verif.Spec Require Import WeightsSpec FloatSpec FloatMomentsSpec.
From Verif.Proofs Require Import FloatProofs FloatNormalize FloatLogProofs FloatMomentsProofs FloatExamples.
From Verif.Props Require Import FloatProps.
Import ListNotations.
Open Scope R_scope.

#[local] Instance p24 : Prec_gt_0 24 := eq_refl.
#[local] Instance e24 : Prec_lt_emax 24 128 := eq_refl.

Lemma sum_quadratic {A} (w x : A -> R) a l :
  Rsum (map (fun p => w p * ((x p - a) * (x p - a))) l) =
  Rsum (map (fun p => w p * (x p * x p)) l) - 2 * a * Rsum (map (fun p => w p * x p) l) + a * a * Rsum (map w l).
Proof. unfold Rsum. induction l as [|p l IH]; cbn [map fold_right]; [ring|]. rewrite IH. ring. Qed.

Section Reading.
  Context {prec emax : Z}.
  Notation float := (binary_float prec emax).
  Variables weights values : list float.
  Hypothesis Hlen : length weights = length values.

  Lemma averaged_pairs f : averaged (map B2R weights) (map B2R values) f =
    Rsum (map (fun p => B2R (fst p) * f (B2R (snd p))) (combine weights values)) / Rsum (map B2R weights).
  Proof. unfold averaged. rewrite combine_map_both, map_map. reflexivity. Qed.
  Lemma total_pairs : Rsum (map (fun p : float * float => B2R (fst p)) (combine weights values)) = Rsum (map B2R weights).
  Proof. now apply sum_fsts. Qed.
End Reading.

(** What is asked of particles, weights and format: the weights as [normalize] returns them (C98), no more than 2^18
    particles in float32 (2^47 in float64), particles whose squares stay away from the largest number. *)
Definition fair_particles {prec emax : Z} (values weights : list (binary_float prec emax)) (X : R) : Prop :=
  length weights = length values /\
  (forall c, In c weights -> is_finite c = true /\ 0 <= B2R c <= 1) /\
  Rabs (Rsum (map B2R weights) - 1) <= 4 * INR (length values) * bpow radix2 (- prec) /\
  INR (length values) * bpow radix2 (- prec) <= / 64 /\
  (forall x, In x values -> is_finite x = true /\ Rabs (B2R x) <= X) /\
  1 <= X /\ 64 * (X * X) <= bpow radix2 (emax - 1).

(** C116.  Whatever the order of summation: the filter mean is the average of the particles up to an error of a few
    units in the last place, times the number of particles, of their average size (second term: the smallest positive
    number of the format). *)
Theorem C116_mean_floats :
  forall (prec emax : Z) (Hp : Prec_gt_0 prec) (He : Prec_lt_emax prec emax)
         (fsum : list (binary_float prec emax) -> binary_float prec emax) values weights X,
    (prec + 3 <= emax)%Z -> adds_up fsum -> fair_particles values weights X ->
    let n := INR (length values) in
    let mean := fst (get_filter_mean_and_variance fsum values weights) in
    is_finite mean = true /\
    Rabs (B2R mean - average_of (map B2R weights) (map B2R values)) <=
      9 * n * bpow radix2 (- prec) * size_of (map B2R weights) (map B2R values) + n * bpow radix2 (SpecFloat.emin prec emax).
Proof.
  intros prec emax Hp He fsum values weights X Hwide Hsum (Hlen & Hw & Htot & Hsmall & Hx & HX & Hroom) n mean.
  assert (Htot' : Rabs (Rsum (map (fun p : binary_float prec emax * binary_float prec emax => B2R (fst p)) (combine weights values)) - 1) <=
                  4 * INR (length values) * bpow radix2 (- prec)) by now rewrite total_pairs.
  destruct (mean_core Hwide fsum Hsum values weights X Hlen Hw Hx HX Hroom Hsmall Htot') as (F & E).
  pose proof (mean_size values weights X Hw Hx) as B. cbv beta in B. pose proof (size_range values weights X Hw Hx HX Hsmall Htot') as R0.
  split; [exact F|]. unfold average_of, size_of. rewrite !averaged_pairs.
  unfold mean, get_filter_mean_and_variance, fst at 1. fold n in E, Htot, Hsmall. unfold FloatProofs.eps in E. set (eps := bpow radix2 (- prec)) in *.
  set (W := Rsum (map B2R weights)) in *.
  set (m := Rsum (map (fun p : binary_float prec emax * binary_float prec emax => B2R (fst p) * B2R (snd p)) (combine weights values))) in *.
  set (M := Rsum (map (fun p : binary_float prec emax * binary_float prec emax => B2R (fst p) * Rabs (B2R (snd p))) (combine weights values))) in *.
  set (mh := B2R (filter_mean fsum values weights)) in *.
  assert (PW : 15 / 16 <= W <= 17 / 16) by (apply Rabs_le_between in Htot; lra).
  set (A := M / W). assert (EM : M = A * W) by (unfold A; field; lra).
  assert (PA : 0 <= A) by (apply Rdiv_le_0_compat; lra).
  set (mu := m / W). assert (Em : m = mu * W) by (unfold mu; field; lra).
  assert (Bmu : Rabs mu <= A).
  { unfold mu, A, Rdiv. rewrite Rabs_mult, (Rabs_pos_eq (/ W)) by (left; apply Rinv_0_lt_compat; lra).
    apply Rmult_le_compat_r; [left; apply Rinv_0_lt_compat; lra|exact B]. }
  assert (D1 : Rabs (m - mu) <= 4 * n * eps * A).
  { rewrite Em. replace (mu * W - mu) with ((W - 1) * mu) by ring. rewrite Rabs_mult. apply Rmult_le_compat; try apply Rabs_pos; assumption. }
  assert (Pn : 0 <= n * eps) by (apply Rmult_le_pos; [apply pos_INR|left; apply bpow_gt_0]).
  assert (D2 : n * eps * M <= 17 / 16 * (n * eps * A)).
  { rewrite EM. replace (n * eps * (A * W)) with (W * (n * eps * A)) by ring. apply Rmult_le_compat_r; [|lra]. now apply Rmult_le_pos. }
  assert (P2 : 0 <= n * eps * A) by (now apply Rmult_le_pos).
  apply Rabs_le_between in E. apply Rabs_le_between in D1. apply Rabs_le. lra.
Qed.
Print Assumptions C116_mean_floats.

(** The filter variance is never negative; its error is relative to the variance itself, plus the square of the error
    of the mean: no cancellation, however far from zero the particles are. *)
Theorem C116_variance_floats :
  forall (prec emax : Z) (Hp : Prec_gt_0 prec) (He : Prec_lt_emax prec emax)
         (fsum : list (binary_float prec emax) -> binary_float prec emax) values weights X,
    (prec + 3 <= emax)%Z -> adds_up fsum -> fair_particles values weights X ->
    let n := INR (length values) in
    let off := 9 * n * bpow radix2 (- prec) * size_of (map B2R weights) (map B2R values) + n * bpow radix2 (SpecFloat.emin prec emax) in
    let var := snd (get_filter_mean_and_variance fsum values weights) in
    is_finite var = true /\ 0 <= B2R var /\
    Rabs (B2R var - variance_of (map B2R weights) (map B2R values)) <=
      13 * n * bpow radix2 (- prec) * variance_of (map B2R weights) (map B2R values) + 2 * (off * off) + 2 * n * bpow radix2 (SpecFloat.emin prec emax).
Proof.
  intros prec emax Hp He fsum values weights X Hwide Hsum Hfair n off var.
  destruct (C116_mean_floats prec emax Hp He fsum values weights X Hwide Hsum Hfair) as (_ & Em). fold n in Em. cbv zeta in Em. fold off in Em.
  destruct Hfair as (Hlen & Hw & Htot & Hsmall & Hx & HX & Hroom).
  assert (Htot' : Rabs (Rsum (map (fun p : binary_float prec emax * binary_float prec emax => B2R (fst p)) (combine weights values)) - 1) <=
                  4 * INR (length values) * bpow radix2 (- prec)) by now rewrite total_pairs.
  destruct (variance_core Hwide fsum Hsum values weights X Hlen Hw Hx HX Hroom Hsmall Htot') as (F & N & E).
  split; [exact F|]. split; [exact N|]. unfold var, get_filter_mean_and_variance in *. cbn [fst snd] in *.
  fold n in E, Htot, Hsmall. unfold FloatProofs.eps in E. set (eps := bpow radix2 (- prec)) in *.
  set (vh := B2R (filter_variance fsum values weights)) in *. set (mh := B2R (filter_mean fsum values weights)) in *.
  set (mu := average_of (map B2R weights) (map B2R values)) in *.
  assert (Ev : variance_of (map B2R weights) (map B2R values) =
    Rsum (map (fun p : binary_float prec emax * binary_float prec emax => B2R (fst p) * ((B2R (snd p) - mu) * (B2R (snd p) - mu))) (combine weights values)) / Rsum (map B2R weights)).
  { unfold variance_of. fold mu. rewrite averaged_pairs. reflexivity. }
  assert (Eu : mu = Rsum (map (fun p : binary_float prec emax * binary_float prec emax => B2R (fst p) * B2R (snd p)) (combine weights values)) / Rsum (map B2R weights)).
  { unfold mu, average_of. rewrite averaged_pairs. reflexivity. }
  set (v := variance_of (map B2R weights) (map B2R values)) in *.
  pose proof (fun a => sum_quadratic (fun p : binary_float prec emax * binary_float prec emax => B2R (fst p)) (fun p => B2R (snd p)) a (combine weights values)) as SQ.
  cbv beta in SQ. rewrite SQ in Ev. rewrite SQ in E. rewrite !total_pairs in Ev, E by exact Hlen.
  set (W := Rsum (map B2R weights)) in *. set (Q := Rsum (map _ (combine weights values))) in Ev at 1.
  fold Q in E.
  set (m := Rsum (map (fun p : binary_float prec emax * binary_float prec emax => B2R (fst p) * B2R (snd p)) (combine weights values))) in *.
  assert (PW : 15 / 16 <= W <= 17 / 16) by (apply Rabs_le_between in Htot; lra).
  assert (Ed : Q - 2 * mh * m + mh * mh * W = W * v + W * ((mh - mu) * (mh - mu))).
  { rewrite Ev, Eu. field. lra. }
  rewrite Ed in E.
  assert (Pv : 0 <= v).
  { unfold v, variance_of. fold mu. rewrite averaged_pairs. apply Rdiv_le_0_compat; [|fold W; lra]. apply Rsum_nonneg. intros y Hy. apply in_map_iff in Hy.
    destruct Hy as ((c, x) & <- & Hc). apply Rmult_le_pos; [apply (Hw c (in_combine_l _ _ _ _ Hc))|apply Rle_0_sqr]. }
  assert (Po : (mh - mu) * (mh - mu) <= off * off).
  { replace ((mh - mu) * (mh - mu)) with (Rabs (mh - mu) * Rabs (mh - mu)).
    - apply Rmult_le_compat; try apply Rabs_pos; exact Em.
    - rewrite <- Rabs_mult. apply Rabs_pos_eq, Rle_0_sqr. }
  assert (P0 : 0 <= (mh - mu) * (mh - mu)) by apply Rle_0_sqr.
  set (o2 := (mh - mu) * (mh - mu)) in *. set (O2 := off * off) in *.
  assert (Pn : 0 <= n * eps) by (apply Rmult_le_pos; [apply pos_INR|left; apply bpow_gt_0]).
  assert (B1 : W * o2 <= 17 / 16 * O2) by (apply Rmult_le_compat; lra).
  assert (B1' : 0 <= W * o2) by (apply Rmult_le_pos; lra).
  assert (B2 : W * v <= 17 / 16 * v) by (apply Rmult_le_compat_r; lra).
  assert (B3 : n * eps * (W * v + W * o2) <= n * eps * (17 / 16 * v) + / 64 * (17 / 16 * O2)).
  { rewrite Rmult_plus_distr_l. apply Rplus_le_compat; [apply Rmult_le_compat_l; lra|]. apply Rmult_le_compat; lra. }
  assert (B4 : Rabs (W * v - v) <= 4 * n * eps * v).
  { replace (W * v - v) with ((W - 1) * v) by ring. rewrite Rabs_mult, (Rabs_pos_eq v) by exact Pv. apply Rmult_le_compat_r; assumption. }
  assert (B5 : 0 <= n * eps * v) by (now apply Rmult_le_pos).
  apply Rabs_le_between in E. apply Rabs_le_between in B4. apply Rabs_le. lra.
Qed.
Print Assumptions C116_variance_floats.

(** Averages with weights that are close. *)
Lemma close_sums w p x (f : R -> R) c F : length w = length p -> length p = length x -> 0 <= c ->
  (forall i, (i < length p)%nat -> Rabs (nth i w 0 - nth i p 0) <= c) -> (forall a, In a x -> Rabs (f a) <= F) ->
  Rabs (Rsum (map (fun q => fst q * f (snd q)) (combine w x)) - Rsum (map (fun q => fst q * f (snd q)) (combine p x))) <= INR (length x) * (c * F).
Proof.
  intros L1 L2 Hc. unfold Rsum. revert p x L1 L2. induction w as [|a w IH]; intros [|b p] [|y x] L1 L2 H1 H2; try discriminate L1; try discriminate L2.
  - simpl. rewrite Rminus_0_r, Rabs_R0. lra.
  - cbn [combine map fold_right fst snd]. change (length (y :: x)) with (S (length x)). rewrite S_INR. injection L1 as L1. injection L2 as L2.
    pose proof (H1 0%nat ltac:(simpl; lia)) as Ha. cbn [nth] in Ha.
    specialize (IH p x L1 L2 ltac:(intros i Hi; apply (H1 (S i)); simpl; lia) ltac:(intros; apply H2; now right)).
    pose proof (H2 y (or_introl eq_refl)) as Hf.
    assert (Hm : Rabs ((a - b) * f y) <= c * F) by (rewrite Rabs_mult; apply Rmult_le_compat; try apply Rabs_pos; assumption).
    apply Rabs_le_between in IH. apply Rabs_le_between in Hm. apply Rabs_le. lra.
Qed.
Lemma bounded_average w x f F : length w = length x -> (forall a, In a w -> 0 <= a) -> 0 < Rsum w ->
  (forall a, In a x -> Rabs (f a) <= F) -> Rabs (averaged w x f) <= F.
Proof.
  intros L Hw Hs Hf. unfold averaged, Rdiv. rewrite Rabs_mult, (Rabs_pos_eq (/ _)) by (left; now apply Rinv_0_lt_compat).
  apply Rle_div_l; [exact Hs|]. eapply Rle_trans; [apply sum_abs|]. replace (Rsum w) with (Rsum (map (fun q => fst q) (combine w x))) by (rewrite (sum_fsts (fun y => y) w x L); now rewrite map_id). rewrite <- sum_scale. apply sum_mono.
  intros (a, b) H. cbn [fst snd]. pose proof (Hw a (in_combine_l _ _ _ _ H)). rewrite Rabs_mult, (Rabs_pos_eq a), Rmult_comm by assumption.
  apply Rmult_le_compat_r; [assumption|]. apply Hf. eapply in_combine_r, H.
Qed.
Lemma averaged_square w x a : length w = length x -> Rsum w <> 0 ->
  averaged w x (fun y => (y - a) * (y - a)) = averaged w x (fun y => y * y) - 2 * a * averaged w x (fun y => y) + a * a.
Proof.
  intros L Hs. unfold averaged. rewrite (sum_quadratic fst snd). 
  replace (Rsum (map fst (combine w x))) with (Rsum w); [field; exact Hs|]. symmetry. rewrite <- (map_id w) at 2. exact (sum_fsts (fun y => y) w x L).
Qed.

(** From the log weights: [normalize], then the moments.  Means and variances under the exact normalised weights. *)
Theorem C116_from_log_weights_floats :
  forall (prec emax : Z) (Hp : Prec_gt_0 prec) (He : Prec_lt_emax prec emax)
         (fexp : binary_float prec emax -> binary_float prec emax) fsum values logw alpha X,
    (prec + 3 <= emax)%Z -> exponential alpha fexp -> adds_up fsum ->
    length logw = length values -> INR (length values) * bpow radix2 (- prec) <= / 64 ->
    (exists x, In x logw /\ log_weight x <> None) ->
    (forall x, In x values -> is_finite x = true /\ Rabs (B2R x) <= X) -> 1 <= X -> 64 * (X * X) <= bpow radix2 (emax - 1) ->
    let n := INR (length values) in
    exists weights, normalize fexp fsum logw = Ok weights /\
      let moments := get_filter_mean_and_variance fsum values weights in
      is_finite (fst moments) = true /\ is_finite (snd moments) = true /\ 0 <= B2R (snd moments) /\
      Rabs (B2R (fst moments) - average_of (map weight logw) (map B2R values)) <= n * n * X * (2 * alpha + 20 * bpow radix2 (- prec)) /\
      Rabs (B2R (snd moments) - variance_of (map weight logw) (map B2R values)) <= n * n * (X * X) * (6 * alpha + 50 * bpow radix2 (- prec)).
Proof.
  intros prec emax Hp He fexp fsum values logw alpha X Hwide Hexp Hsum Hlen Hsmall Hus Hx HX Hroom n.
  assert (Ha : 0 <= alpha).
  { destruct Hexp as (_ & _ & _ & E3). destruct (E3 (B754_zero false) eq_refl ltac:(simpl; lra)) as (_ & _ & T). eapply Rle_trans; [apply Rabs_pos|exact T]. }
  destruct (C98_normalize_floats prec emax Hp He fexp fsum logw alpha Hwide Hexp Hsum) as (w & En & Lw & Hw & Ht & Hc); [rewrite Hlen; lra|exact Hus|].
  exists w. split; [exact En|]. rewrite Hlen in *.
  assert (Hfair : fair_particles values w X) by (repeat split; try assumption; try (now apply Hw); now apply Hx).
  pose proof (C116_mean_floats prec emax Hp He fsum values w X Hwide Hsum Hfair) as (F1 & B1).
  pose proof (C116_variance_floats prec emax Hp He fsum values w X Hwide Hsum Hfair) as (F2 & N2 & B2).
  cbv zeta in *. split; [exact F1|]. split; [exact F2|]. split; [exact N2|].
  set (mh := B2R (fst (get_filter_mean_and_variance fsum values w))) in *. set (vh := B2R (snd (get_filter_mean_and_variance fsum values w))) in *.
  set (eps := bpow radix2 (- prec)) in *. change (INR (length values)) with n in B1, B2, Hsmall, Ht, Hc.
  set (x := map B2R values) in *. set (wr := map B2R w) in *. set (q := map weight logw) in *.
  assert (Lx : length x = length values) by apply map_length. assert (Lwr : length wr = length x) by (unfold wr; rewrite map_length; congruence).
  assert (Lq : length q = length x) by (unfold q; rewrite map_length; congruence).
  assert (Hwr : forall a, In a wr -> 0 <= a). { intros a Hin. apply in_map_iff in Hin. destruct Hin as (y & <- & Hy). now apply Hw. }
  assert (Hq : forall a, In a q -> 0 <= a).
  { intros a Hin. apply in_map_iff in Hin. destruct Hin as (y & <- & Hy). unfold weight. destruct (log_weight y); [left; apply exp_pos|lra]. }
  assert (Hxr : forall a, In a x -> Rabs a <= X). { intros a Hin. apply in_map_iff in Hin. destruct Hin as (y & <- & Hy). now apply Hx. }
  assert (Hxx : forall a, In a x -> Rabs (a * a) <= X * X).
  { intros a Hin. specialize (Hxr a Hin). rewrite Rabs_mult. apply Rmult_le_compat; try apply Rabs_pos; assumption. }
  assert (PS : 0 < Rsum q).
  { destruct Hus as (y & Hy & Hu). apply Rlt_le_trans with (weight y).
    - unfold weight. destruct (log_weight y); [apply exp_pos|congruence].
    - apply Rsum_in; [now apply in_map|exact Hq]. }
  assert (PW : 15 / 16 <= Rsum wr <= 17 / 16) by (apply Rabs_le_between in Ht; lra).
  assert (Pn1 : 1 <= n).
  { unfold n. apply (le_INR 1). destruct values; [|simpl; lia]. destruct Hus as (y & Hy & _). destruct logw; [destruct Hy|discriminate Hlen]. }
  assert (Pe : 0 < eps) by apply bpow_gt_0.
  assert (Pne : 0 <= n * eps) by (apply Rmult_le_pos; lra).
  set (kap := 2 * n * alpha + 6 * n * eps) in *.
  assert (Pk : 0 <= kap).
  { unfold kap. assert (0 <= n * alpha) by (apply Rmult_le_pos; lra). lra. }
  (* exact averages *)
  set (p := map (fun y => y / Rsum q) q).
  assert (Lp : length p = length x) by (unfold p; now rewrite map_length).
  assert (Ep : forall f, averaged q x f = Rsum (map (fun z => fst z * f (snd z)) (combine p x))).
  { intros f. unfold averaged, p. replace (combine (map (fun y => y / Rsum q) q) x) with (map (fun z => (fst z / Rsum q, snd z)) (combine q x)).
    - rewrite map_map. cbn [fst snd]. unfold Rdiv at 1. rewrite Rmult_comm, <- sum_scale. apply sum_eq. intros z _. unfold Rdiv. ring.
    - rewrite <- (map_id x) at 2. now rewrite combine_map_both. }
  assert (Hclose : forall i, (i < length p)%nat -> Rabs (nth i wr 0 - nth i p 0) <= kap).
  { intros i Hi. rewrite Lp, Lx in Hi. specialize (Hc i Hi). unfold wr, p, q. rewrite map_map.
    rewrite (nth_indep (map B2R w) 0 (B2R (B754_nan : binary_float prec emax))) by (rewrite map_length; congruence || (rewrite Lw; exact Hi)).
    rewrite map_nth.
    rewrite (nth_indep _ 0 ((fun y => weight y / Rsum (map weight logw)) (B754_nan : binary_float prec emax))) by (rewrite map_length; congruence || (rewrite Hlen; exact Hi)).
    rewrite (map_nth (fun y => weight y / Rsum (map weight logw))). exact Hc. }
  assert (HA : forall f F, 0 <= F -> (forall a, In a x -> Rabs (f a) <= F) ->
    Rabs (averaged wr x f - averaged q x f) <= 4 * n * eps * F + n * (kap * F)).
  { intros f F PF Hf. pose proof (close_sums wr p x f kap F ltac:(congruence) Lp Pk Hclose Hf) as C. rewrite <- Ep, Lx in C. fold n in C.
    pose proof (bounded_average wr x f F Lwr Hwr ltac:(lra) Hf) as Bw.
    replace (Rsum (map (fun z => fst z * f (snd z)) (combine wr x))) with (averaged wr x f * Rsum wr) in C by (unfold averaged; field; lra).
    assert (D : Rabs (averaged wr x f * (Rsum wr - 1)) <= F * (4 * n * eps)) by (rewrite Rabs_mult; apply Rmult_le_compat; try apply Rabs_pos; assumption).
    apply Rabs_le_between in C. apply Rabs_le_between in D. apply Rabs_le. lra. }
  assert (XX : 1 * X <= X * X) by (apply Rmult_le_compat_r; lra).
  assert (PXX : 0 <= X * X) by lra.
  pose proof (HA (fun a => a) X ltac:(lra) Hxr) as H1. pose proof (HA (fun a => a * a) (X * X) PXX Hxx) as H2.
  pose proof (bounded_average wr x Rabs X Lwr Hwr ltac:(lra) ltac:(intros a Hin; rewrite Rabs_Rabsolu; now apply Hxr)) as BA.
  pose proof (bounded_average wr x (fun a => a) X Lwr Hwr ltac:(lra) Hxr) as Bm. pose proof (bounded_average q x (fun a => a) X Lq Hq PS Hxr) as Bmq.
  pose proof (bounded_average wr x (fun a => a * a) (X * X) Lwr Hwr ltac:(lra) Hxx) as Bs.
  unfold average_of, size_of in *.
  assert (Vw : variance_of wr x = averaged wr x (fun a => a * a) - averaged wr x (fun a => a) * averaged wr x (fun a => a)).
  { unfold variance_of. rewrite averaged_square by (first [exact Lwr|lra]). unfold average_of. ring. }
  assert (Vq : variance_of q x = averaged q x (fun a => a * a) - averaged q x (fun a => a) * averaged q x (fun a => a)).
  { unfold variance_of. rewrite averaged_square by (first [exact Lq|lra]). unfold average_of. ring. }
  set (tiny := n * bpow radix2 (SpecFloat.emin prec emax)) in *.
  assert (Pt : 0 <= tiny <= n * eps).
  { unfold tiny. split; [apply Rmult_le_pos; [lra|left; apply bpow_gt_0]|]. apply Rmult_le_compat_l; [lra|]. apply bpow_le. rewrite emin_eq. pose proof (prec_pos (prec := prec)). lia. }
  set (mw := averaged wr x (fun a => a)) in *. set (mq := averaged q x (fun a => a)) in *.
  set (sw := averaged wr x (fun a => a * a)) in *. set (sq := averaged q x (fun a => a * a)) in *. set (A := averaged wr x Rabs) in *.
  assert (NE : n * eps <= n * n * eps). { rewrite Rmult_assoc. rewrite <- (Rmult_1_l (n * eps)) at 1. apply Rmult_le_compat_r; lra. }
  assert (NEX : n * eps * X <= n * n * eps * X) by (apply Rmult_le_compat_r; lra).
  assert (NEXX : n * eps * (X * X) <= n * n * eps * (X * X)) by (apply Rmult_le_compat_r; lra).
  assert (NX : n * eps * 1 <= n * eps * X) by (apply Rmult_le_compat_l; lra).
  assert (NXX : n * eps * 1 <= n * eps * (X * X)) by (apply Rmult_le_compat_l; lra).
  assert (AX : n * eps * A <= n * eps * X) by (apply Rmult_le_compat_l; [lra|]; apply Rabs_le_between in BA; lra).
  set (off := 9 * n * eps * A + tiny) in *.
  assert (PA : 0 <= A).
  { unfold A, averaged. apply Rdiv_le_0_compat; [|lra]. apply Rsum_nonneg. intros y Hy. apply in_map_iff in Hy. destruct Hy as ((c, b) & <- & Hcb).
    apply Rmult_le_pos; [apply Hwr; eapply in_combine_l, Hcb|apply Rabs_pos]. }
  assert (Po : 0 <= off <= 10 * (n * eps * X)).
  { unfold off. assert (0 <= n * eps * A) by (now apply Rmult_le_pos). lra. }
  assert (Ek : n * (kap * X) = n * n * X * (2 * alpha) + 6 * (n * n * eps * X)) by (unfold kap; ring).
  assert (Ek2 : n * (kap * (X * X)) = n * n * (X * X) * (2 * alpha) + 6 * (n * n * eps * (X * X))) by (unfold kap; ring).
  split.
  - apply Rabs_le_between in B1. apply Rabs_le_between in H1. apply Rabs_le. lra.
  - assert (Oo : off * off <= 100 / 64 * (n * eps * (X * X))).
    { apply Rle_trans with ((10 * (n * eps * X)) * (10 * (n * eps * X))); [apply Rmult_le_compat; lra|].
      replace (10 * (n * eps * X) * (10 * (n * eps * X))) with (100 * (n * eps) * (n * eps * (X * X))) by ring.
      apply Rmult_le_compat_r; [apply Rmult_le_pos; lra|lra]. }
    assert (Pm : 0 <= mw * mw) by apply Rle_0_sqr.
    assert (Vb : n * eps * variance_of wr x <= n * eps * (X * X)).
    { apply Rmult_le_compat_l; [lra|]. rewrite Vw. apply Rabs_le_between in Bs. lra. }
    assert (Dm : Rabs (mw * mw - mq * mq) <= (4 * n * eps * X + n * (kap * X)) * (2 * X)).
    { replace (mw * mw - mq * mq) with ((mw - mq) * (mw + mq)) by ring. rewrite Rabs_mult. apply Rmult_le_compat; try apply Rabs_pos; [exact H1|].
      eapply Rle_trans; [apply Rabs_triang|lra]. }
    assert (Dv : Rabs (variance_of wr x - variance_of q x) <= 3 * (4 * n * eps * (X * X) + n * (kap * (X * X)))).
    { rewrite Vw, Vq. apply Rabs_le_between in Dm. apply Rabs_le_between in H2. apply Rabs_le. lra. }
    replace (2 * n * bpow radix2 (SpecFloat.emin prec emax)) with (2 * tiny) in B2 by (unfold tiny; ring). apply Rabs_le_between in B2. apply Rabs_le_between in Dv. apply Rabs_le. lra.
Qed.
Print Assumptions C116_from_log_weights_floats.

(** What does not hold: that the filter mean lies between the smallest and the largest particle, or that identical
    particles have no variance.  Ten particles of the same weight, all equal to 1, have a mean above 1, twelve have one
    below 1; their variance is positive. *)
Theorem C116_identical_particles_floats_refuted :
  forall fexp, (forall s, fexp (B754_zero s) = Bone) -> fexp lowest32 = B754_zero false ->
    (exists w, normalize fexp sum_left (repeat (B754_zero false : f32) 10) = Ok w /\
       let (mean, var) := get_filter_mean_and_variance sum_left (repeat (Bone : f32) 10) w in 1 < B2R mean /\ 0 < B2R var) /\
    (exists w, normalize fexp sum_left (repeat (B754_zero false : f32) 12) = Ok w /\
       let (mean, var) := get_filter_mean_and_variance sum_left (repeat (Bone : f32) 12) w in B2R mean < 1 /\ 0 < B2R var).
Proof.
  intros fexp H1 H2.
  rewrite !(normalize_plain fexp sum_left) by first [assumption|vm_compute; reflexivity]. split.
  - assert (Ei : match normalize crude_exp sum_left (repeat (B754_zero false) 10) with
        | Ok w => let (a, b) := get_filter_mean_and_variance sum_left (repeat (Bone : f32) 10) w in (B2SF a, B2SF b)
        | _ => (SpecFloat.S754_nan, SpecFloat.S754_nan) end = (SpecFloat.S754_finite false 8388609 (-23), SpecFloat.S754_finite false 8388609 (-69)))
      by (vm_compute; reflexivity).
    destruct (normalize crude_exp sum_left (repeat (B754_zero false) 10)) as [w|]; [|discriminate]. exists w. split; [reflexivity|].
    destruct (get_filter_mean_and_variance sum_left (repeat (Bone : f32) 10) w) as (a, b). injection Ei as Ea Eb.
    rewrite <- !SF2R_B2SF, Ea, Eb. split; float_lra.
  - assert (Ei : match normalize crude_exp sum_left (repeat (B754_zero false) 12) with
        | Ok w => let (a, b) := get_filter_mean_and_variance sum_left (repeat (Bone : f32) 12) w in (B2SF a, B2SF b)
        | _ => (SpecFloat.S754_nan, SpecFloat.S754_nan) end = (SpecFloat.S754_finite false 16777214 (-24), SpecFloat.S754_finite false 16777214 (-70)))
      by (vm_compute; reflexivity).
    destruct (normalize crude_exp sum_left (repeat (B754_zero false) 12)) as [w|]; [|discriminate]. exists w. split; [reflexivity|].
    destruct (get_filter_mean_and_variance sum_left (repeat (Bone : f32) 12) w) as (a, b). injection Ei as Ea Eb.
    rewrite <- !SF2R_B2SF, Ea, Eb. split; float_lra.
Qed.
Print Assumptions C116_identical_particles_floats_refuted.

(** Four particles of different size and sign, among the log weights a NaN and a -inf. *)
Definition some_particles : list f32 := [of_nat 7; of_nat 1; of_nat 3; Bopp (of_nat 2)].
Lemma some_particles_ok : forall x, In x some_particles -> is_finite x = true /\ Rabs (B2R x) <= 8.
Proof.
  assert (E : map B2SF some_particles = [SpecFloat.S754_finite false 14680064 (-21); SpecFloat.S754_finite false 8388608 (-23);
    SpecFloat.S754_finite false 12582912 (-22); SpecFloat.S754_finite true 8388608 (-22)]) by (vm_compute; reflexivity).
  intros x Hx. apply (in_map B2SF) in Hx. rewrite E in Hx. rewrite <- SF2R_B2SF.
  split; [destruct x as [s|s| |s m e Hb]; try reflexivity; simpl in Hx; destruct Hx as [Hx|[Hx|[Hx|[Hx|[]]]]]; discriminate Hx|].
  destruct Hx as [<-|[<-|[<-|[<-|[]]]]]; apply Rabs_le; unfold SF2R; cbn [cond_Zopp Z.opp]; split; float_lra.
Qed.
Example C116_nonvacuous : (24 + 3 <= 128)%Z /\ exponential (bpow radix2 (- 24)) (rounded_exp : f32 -> f32) /\ adds_up (sum_left : list f32 -> f32) /\
  length some_weights = length some_particles /\ INR (length some_particles) * bpow radix2 (- 24) <= / 64 /\
  (exists x, In x some_weights /\ log_weight x <> None) /\ (forall x, In x some_particles -> is_finite x = true /\ Rabs (B2R x) <= 8) /\
  1 <= 8 /\ 64 * (8 * 8) <= bpow radix2 (128 - 1) /\
  exists weights, normalize rounded_exp sum_left some_weights = Ok weights /\ fair_particles some_particles weights 8.
Proof.
  destruct C98_nonvacuous as (H1 & H2 & H3 & H4 & H5).
  assert (Hn : INR (length some_particles) * bpow radix2 (- 24) <= / 64) by (simpl; lra).
  assert (Hb : 64 * (8 * 8) <= bpow radix2 (128 - 1)).
  { apply Rle_trans with (bpow radix2 12); [simpl; lra|apply bpow_le; lia]. }
  repeat (split; [first [assumption|reflexivity|lra|exact some_particles_ok]|]).
  destruct (C98_normalize_floats 24 128 _ _ rounded_exp sum_left some_weights _ H1 H2 H3 H4 H5) as (w & En & Lw & Hw & Ht & _).
  exists w. split; [exact En|]. split; [exact Lw|]. split; [exact Hw|]. split; [exact Ht|]. split; [exact Hn|].
  split; [exact some_particles_ok|]. split; [lra|exact Hb].
Qed.
