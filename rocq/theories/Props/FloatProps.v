(** C96-C100: normalize, get_ess and the resampling schemes in floating point arithmetic. *)
From Coq Require Import ZArith Reals List Bool Sorted Lia Lra.
From Flocq Require Import Core.Core IEEE754.BinarySingleNaN.
From Coquelicot Require Import Rcomplements.
From Verif.Model Require Import Base FloatResampling.
From Verif.Spec Require Import WeightsSpec ResamplingSpec FloatSpec.
From Verif.Proofs Require Import FloatProofs FloatSystematic FloatNormalize FloatEss FloatResidual FloatExamples.
Import ListNotations.
Open Scope R_scope.

#[local] Instance p24 : Prec_gt_0 24 := eq_refl.
#[local] Instance e24 : Prec_lt_emax 24 128 := eq_refl.
#[local] Instance p53 : Prec_gt_0 53 := eq_refl.
#[local] Instance e53 : Prec_lt_emax 53 1024 := eq_refl.
Notation f32 := (binary_float 24 128).

(** Numerals of floating point numbers. *)
Ltac float_lra :=
  unfold SF2R, F2R; cbn [Fnum Fexp cond_Zopp bpow];
  repeat match goal with |- context [IZR (Z.pos ?p)] => let q := eval vm_compute in p in progress change p with q end;
  repeat match goal with |- context [Z.pow_pos ?a ?b] => let q := eval vm_compute in (Z.pow_pos a b) in change (Z.pow_pos a b) with q end;
  lra.

(** Non-trivial log weights: one NaN, one -inf, two numbers. *)
Definition some_weights : list f32 := [B754_nan; Bone; B754_infinity true; of_nat 3].

(* -------------------------------------------------------------------------------------------------------------------- *)

Lemma normalize_length {prec emax : Z} {Hp : Prec_gt_0 prec} {He : Prec_lt_emax prec emax} fexp fsum (l : list (binary_float prec emax)) :
  l <> [] -> exists p, normalize fexp fsum l = Ok p /\ length p = length l.
Proof.
  intros H. rewrite normalize_ne by exact H. cbv zeta. eexists. split; [reflexivity|].
  destruct (Beqb _ _); unfold softmax; cbv zeta; now rewrite !map_length.
Qed.

(** C96.  For every list of floating point numbers - log weights or weights, whatever they are, NaN and infinities
    included -, every exponential function, every way of adding up and of accumulating, division or multiplication by
    the reciprocal, systematic resampling returns as many indices as there are weights, all valid, sorted. *)
Theorem C96_valid_indices_floats :
  forall (prec emax : Z) (Hp : Prec_gt_0 prec) (He : Prec_lt_emax prec emax)
         (fexp : binary_float prec emax -> binary_float prec emax) fsum how cumsum
         (weights : list (binary_float prec emax)) normalized u,
    (prec + 3 <= emax)%Z -> (forall l, length (cumsum l) = length l) ->
    weights <> [] -> INR (length weights) <= bpow radix2 prec -> is_finite u = true -> 0 <= B2R u <= 1 ->
    exists out, systematic fexp fsum how cumsum weights normalized u = Ok out /\
      length out = length weights /\ StronglySorted le out /\ forall i, In i out -> (i < length weights)%nat.
Proof.
  intros prec emax Hp He fexp fsum how cumsum weights normalized u Hwide Hc Hne Hbig Fu Hu.
  assert (Hw : exists w, (if normalized then Ok weights else normalize fexp fsum weights) = Ok w /\ length w = length weights).
  { destruct normalized; [now exists weights|]. now apply normalize_length. }
  destruct Hw as (w & Ew & El). unfold systematic. rewrite Ew. simpl bind. rewrite <- El in Hbig |- *.
  assert (Hwne : w <> []) by (intros ->; destruct weights; [congruence|discriminate El]).
  set (cum := set_last Bone (cumsum w)).
  assert (Lc : length cum = length w) by (unfold cum; now rewrite length_set_last).
  assert (Hlast : nth (length cum - 1) cum B754_nan = Bone).
  { rewrite Lc. unfold cum. rewrite <- (Hc w). apply nth_set_last_last. intros E. pose proof (Hc w) as L. rewrite E in L.
    destruct w; [congruence|discriminate L]. }
  assert (Hcne : cum <> []) by (intros E; rewrite E in Lc; destruct w; [congruence|discriminate Lc]).
  exists (map (selected how cum u) (seq 0 (length w))).
  assert (Es : systematic_row how cumsum w u = Ok (map (selected how cum u) (seq 0 (length w)))).
  { destruct w as [|a r]; [congruence|]. unfold systematic_row. cbv zeta. unfold selected. fold cum. now rewrite Lc. }
  split; [exact Es|]. split; [now rewrite map_length, seq_length|]. split.
  - rewrite <- Lc in *. now apply selected_sorted.
  - intros i Hi. apply in_map_iff in Hi. destruct Hi as (k & <- & Hk). apply in_seq in Hk. rewrite <- Lc in *.
    apply selected_lt; try assumption. lia.
Qed.
Print Assumptions C96_valid_indices_floats.

Example C96_nonvacuous : (24 + 3 <= 128)%Z /\ (forall l : list f32, length (cpu_cumsum 53 1024 l) = length l) /\
  some_weights <> [] /\ INR (length some_weights) <= bpow radix2 24 /\ is_finite (Bone : f32) = true /\ 0 <= B2R (Bone : f32) <= 1.
Proof.
  split; [lia|]. split; [intros; apply length_cumsum_from|]. split; [discriminate|]. split; [simpl; lra|].
  split; [apply Bone_F|]. rewrite Bone_R. lra.
Qed.

(* -------------------------------------------------------------------------------------------------------------------- *)

(** C97.  Copies of particle [i] among the result: the number of particles times its weight, up to one and up to
    rounding; the running sums are kept in a format at least as good as that of the weights (float64 on the CPU). *)
Theorem C97_copies_floats :
  forall (prec emax prec' emax' : Z) (Hp : Prec_gt_0 prec) (He : Prec_lt_emax prec emax)
         (Hp' : Prec_gt_0 prec') (He' : Prec_lt_emax prec' emax')
         (fexp : binary_float prec emax -> binary_float prec emax) fsum how w u tau i,
    (prec <= prec')%Z -> (emax <= emax')%Z -> (prec + 3 <= emax)%Z ->
    INR (length w) <= bpow radix2 prec -> INR (length w) * bpow radix2 (- prec') <= / 8 ->
    (forall x, In x w -> is_finite x = true /\ 0 <= B2R x) ->
    Rabs (Rsum (map B2R w) - 1) <= tau -> tau <= / 2 ->
    is_finite u = true -> 0 <= B2R u <= 1 -> (i < length w)%nat ->
    exists out, systematic fexp fsum how (cpu_cumsum prec' emax') w true u = Ok out /\
      Rabs (INR (copies i out) - INR (length w) * B2R (nth i w B754_nan)) <=
        1 + INR (length w) * (tau + 16 * bpow radix2 (- prec) + 2 * INR (length w) * bpow radix2 (- prec')).
Proof.
  intros prec emax prec' emax' Hp He Hp' He' fexp fsum how w u tau i H1 H2 H3 Hbig Hn' Hw Htau Htau2 Fu Hu Hi.
  assert (Hne : w <> []) by (intros ->; simpl in Hi; lia).
  assert (Hs : Rsum (map B2R w) <= 3 / 2) by (apply Rabs_le_between in Htau; lra).
  exists (map (sel (prec' := prec') (emax' := emax') w how u) (seq 0 (length w))). split.
  - unfold systematic. simpl bind. destruct w as [|a r]; [congruence|]. reflexivity.
  - replace (B2R (nth i w B754_nan)) with (nth i (map B2R w) 0).
    + apply copies_float; try assumption; intros x Hx; now apply Hw.
    + rewrite (nth_indep _ 0 (B2R (B754_nan : binary_float prec emax))) by (now rewrite map_length). apply map_nth.
Qed.
Print Assumptions C97_copies_floats.

(** The same from log weights to copies: the error is that of the exponential function (alpha), of the weights' dtype
    and of the accumulation dtype. *)
Theorem C97_copies_of_log_weights_floats :
  forall (prec emax prec' emax' : Z) (Hp : Prec_gt_0 prec) (He : Prec_lt_emax prec emax)
         (Hp' : Prec_gt_0 prec') (He' : Prec_lt_emax prec' emax')
         (fexp : binary_float prec emax -> binary_float prec emax) fsum how weights u alpha i,
    (prec <= prec')%Z -> (emax <= emax')%Z -> (prec + 3 <= emax)%Z ->
    exponential alpha fexp -> adds_up fsum ->
    INR (length weights) * bpow radix2 (- prec) <= / 8 ->
    (exists x, In x weights /\ log_weight x <> None) ->
    is_finite u = true -> 0 <= B2R u <= 1 -> (i < length weights)%nat ->
    exists out, systematic fexp fsum how (cpu_cumsum prec' emax') weights false u = Ok out /\
      Rabs (INR (copies i out) - INR (length weights) * (weight (nth i weights B754_nan) / Rsum (map weight weights))) <=
        1 + INR (length weights) * INR (length weights) * (2 * alpha + 26 * bpow radix2 (- prec) + 2 * bpow radix2 (- prec')).
Proof.
  intros prec emax prec' emax' Hp He Hp' He' fexp fsum how weights u alpha i H1 H2 H3 Hexp Hsum Hsmall Hus Fu Hu Hi.
  set (n := INR (length weights)) in *. set (eps := bpow radix2 (- prec)) in *. set (eps' := bpow radix2 (- prec')) in *.
  assert (Pe : 0 < eps) by apply bpow_gt_0. assert (Pe' : 0 < eps') by apply bpow_gt_0.
  assert (Pn : 1 <= n) by (apply (le_INR 1); lia).
  assert (Hbig : n <= bpow radix2 prec).
  { apply Rmult_le_reg_r with eps; [exact Pe|]. unfold eps at 2. rewrite <- bpow_plus, Z.add_opp_diag_r. simpl. lra. }
  assert (Hee : eps' <= eps) by (apply bpow_le; lia).
  assert (Hn' : n * eps' <= / 8).
  { apply Rle_trans with (n * eps); [apply Rmult_le_compat_l; lra|exact Hsmall]. }
  set (w := map (prob fexp fsum weights) weights).
  assert (Lw : length w = length weights) by apply map_length.
  pose proof (normalize_ok H3 fexp fsum alpha Hexp Hsum weights Hus Hbig Hsmall) as En. fold w in En.
  destruct (C97_copies_floats prec emax prec' emax' Hp He Hp' He' fexp fsum how w u (4 * n * eps) i H1 H2 H3) as (out & Eo & B); try assumption.
  - rewrite Lw. exact Hbig.
  - rewrite Lw. exact Hn'.
  - intros x Hx. apply in_map_iff in Hx. destruct Hx as (y & <- & Hy).
    destruct (prob_ok H3 fexp fsum alpha Hexp Hsum weights Hus Hbig Hsmall y Hy) as ((F & R) & _). split; [exact F|lra].
  - exact (sum_near_1 H3 fexp fsum alpha Hexp Hsum weights Hus Hbig Hsmall).
  - fold eps in Hsmall. lra.
  - now rewrite Lw.
  - exists out. split; [unfold systematic in *; rewrite En; exact Eo|].
    rewrite Lw in B. fold n eps eps' in B.
    assert (Ex : nth i w B754_nan = prob fexp fsum weights (nth i weights B754_nan)).
    { unfold w. rewrite (nth_indep _ B754_nan (prob fexp fsum weights B754_nan)) by (rewrite map_length; exact Hi). apply map_nth. }
    rewrite Ex in B.
    pose proof (prob_error H3 fexp fsum alpha Hexp Hsum weights Hus Hbig Hsmall (nth i weights B754_nan) ltac:(now apply nth_In)) as Pr.
    fold n in Pr. change (@FloatProofs.eps prec) with eps in Pr.
    set (x := B2R (prob fexp fsum weights (nth i weights B754_nan))) in *. set (y := weight (nth i weights B754_nan) / Rsum (map weight weights)) in *.
    replace (INR (copies i out) - n * y) with ((INR (copies i out) - n * x) + n * (x - y)) by ring.
    eapply Rle_trans; [apply Rabs_triang|]. rewrite (Rabs_mult n), (Rabs_pos_eq n) by lra.
    assert (n * Rabs (x - y) <= n * (2 * n * alpha + 6 * n * eps)) by (apply Rmult_le_compat_l; lra).
    assert (n * (16 * eps) <= n * (n * (16 * eps))).
    { apply Rmult_le_compat_l; [lra|]. rewrite <- (Rmult_1_l (16 * eps)) at 1. apply Rmult_le_compat_r; lra. }
    lra.
Qed.
Print Assumptions C97_copies_of_log_weights_floats.

(** A particle with weight zero is not selected, unless it is the last one, or the first one and the offset is below
    half a unit in the last place of 1. *)
Theorem C97_zero_weight_floats_partial :
  forall (prec emax prec' emax' : Z) (Hp : Prec_gt_0 prec) (He : Prec_lt_emax prec emax)
         (Hp' : Prec_gt_0 prec') (He' : Prec_lt_emax prec' emax')
         (fexp : binary_float prec emax -> binary_float prec emax) fsum how w u i,
    (prec <= prec')%Z -> (emax <= emax')%Z -> (prec + 3 <= emax)%Z ->
    INR (length w) <= bpow radix2 prec -> INR (length w) * bpow radix2 (- prec') <= / 8 ->
    (forall x, In x w -> is_finite x = true /\ 0 <= B2R x) -> Rsum (map B2R w) <= 3 / 2 ->
    is_finite u = true -> 0 <= B2R u <= 1 ->
    (i < length w - 1)%nat -> B2R (nth i w B754_nan) = 0 -> (0 < i)%nat \/ bpow radix2 (- prec) <= B2R u ->
    exists out, systematic fexp fsum how (cpu_cumsum prec' emax') w true u = Ok out /\ ~ In i out.
Proof.
  intros prec emax prec' emax' Hp He Hp' He' fexp fsum how w u i H1 H2 H3 Hbig Hn' Hw Hs Fu Hu Hi Hz Hc.
  assert (Hne : w <> []) by (intros ->; simpl in Hi; lia).
  exists (map (sel (prec' := prec') (emax' := emax') w how u) (seq 0 (length w))). split.
  - unfold systematic. simpl bind. destruct w as [|a r]; [congruence|]. reflexivity.
  - apply FloatSystematic.zero_float; try assumption; try (intros x Hx; now apply Hw).
    rewrite (nth_indep _ 0 (B2R (B754_nan : binary_float prec emax))) by (rewrite map_length; lia). now rewrite map_nth.
Qed.
Print Assumptions C97_zero_weight_floats_partial.

Lemma softmax_ext {prec emax : Z} {Hp : Prec_gt_0 prec} {He : Prec_lt_emax prec emax} f g fsum (l : list (binary_float prec emax)) :
  (forall x, In x l -> f (fsub x (fmaxl l)) = g (fsub x (fmaxl l))) -> softmax f fsum l = softmax g fsum l.
Proof.
  intros H. unfold softmax. cbv zeta. rewrite (map_ext_in _ (fun x => g (fsub x (fmaxl l))) l) by exact H. reflexivity.
Qed.
Lemma normalize_ext {prec emax : Z} {Hp : Prec_gt_0 prec} {He : Prec_lt_emax prec emax} f g fsum (l : list (binary_float prec emax)) :
  (let y := map (fun x => fsub x (fmaxl (map nan_to_num l))) (map nan_to_num l) in
   forall x, In x y -> f (fsub x (fmaxl y)) = g (fsub x (fmaxl y))) -> normalize f fsum l = normalize g fsum l.
Proof.
  intros H. destruct l as [|a r]; [reflexivity|]. rewrite !normalize_ne by discriminate. cbv zeta in *.
  rewrite (softmax_ext f g) by exact H. reflexivity.
Qed.

(** An exponential function that underflows where exp does. *)
Definition lowest32 : f32 := Bopp Bmax_float.
Definition crude_exp (x : f32) : f32 := match x with B754_zero _ => Bone | _ => B754_zero false end.
Definition plain (x : f32) : bool :=
  match x with
  | B754_zero _ => true
  | B754_finite true m e _ => Pos.eqb m (2 ^ 24 - 1) && Z.eqb e 104
  | _ => false
  end.
Lemma plain_ok f (x : f32) : (forall s, f (B754_zero s) = Bone) -> f lowest32 = B754_zero false -> plain x = true -> f x = crude_exp x.
Proof.
  intros H1 H2 Hx. destruct x as [s|s| |s m e Hb]; try discriminate Hx; [apply H1|]. destruct s; [|discriminate Hx].
  unfold plain in Hx. apply andb_true_iff in Hx. destruct Hx as (Em & Ee). apply Pos.eqb_eq in Em. apply Z.eqb_eq in Ee.
  assert (E : B754_finite true m e Hb = lowest32) by (apply B2SF_inj; subst m e; reflexivity).
  rewrite E, H2. reflexivity.
Qed.
Definition all_plain (l : list f32) : bool :=
  let y := map (fun x => fsub x (fmaxl (map nan_to_num l))) (map nan_to_num l) in
  forallb (fun x => plain (fsub x (fmaxl y))) y.
Lemma normalize_plain f fsum (l : list f32) : (forall s, f (B754_zero s) = Bone) -> f lowest32 = B754_zero false ->
  all_plain l = true -> normalize f fsum l = normalize crude_exp fsum l.
Proof.
  intros H1 H2 H. apply normalize_ext. cbv zeta. intros x Hx. apply plain_ok; try assumption.
  unfold all_plain in H. cbv zeta in H. rewrite forallb_forall in H. now apply H.
Qed.

(** 41 particles of the same weight and one whose log weight is -inf (it stands for exp(-3.4e38), which is 0): the
    normalised weights add up to slightly less than one, and the last particle is selected. *)
Definition heavy_and_dead : list f32 := repeat (B754_zero false) 41 ++ [B754_infinity true].
Definition late_offset : f32 := binary_normalize 24 128 _ _ mode_NE (2 ^ 24 - 1) (-24) false.
Theorem C97_zero_weight_floats_refuted :
  forall fexp, (forall s, fexp (B754_zero s) = Bone) -> fexp lowest32 = B754_zero false ->
  forall how,
    normalize fexp sum_left heavy_and_dead <> Raise IndexError /\
    (forall p, normalize fexp sum_left heavy_and_dead = Ok p -> B2R (nth 41 p B754_nan) = 0) /\
    0 <= B2R late_offset < 1 /\
    exists out, systematic fexp sum_left how (cpu_cumsum 53 1024) heavy_and_dead false late_offset = Ok out /\ In 41%nat out.
Proof.
  intros fexp H1 H2 how.
  assert (En : normalize fexp sum_left heavy_and_dead = normalize crude_exp sum_left heavy_and_dead).
  { apply normalize_plain; try assumption. vm_compute. reflexivity. }
  rewrite En. split; [|split; [|split]].
  - destruct (normalize_length crude_exp sum_left heavy_and_dead) as (p & -> & _); discriminate.
  - intros p Ep.
    assert (Z0 : match normalize crude_exp sum_left heavy_and_dead with Ok p => B2SF (nth 41 p B754_nan) | _ => SpecFloat.S754_nan end = SpecFloat.S754_zero false)
      by (vm_compute; reflexivity).
    rewrite Ep in Z0. rewrite <- SF2R_B2SF, Z0. reflexivity.
  - assert (Es : B2SF late_offset = SpecFloat.S754_finite false (2 ^ 24 - 1) (-24)) by (vm_compute; reflexivity).
    rewrite <- SF2R_B2SF, Es. float_lra.
  - unfold systematic. rewrite En.
    assert (Ei : match (let! w := normalize crude_exp sum_left heavy_and_dead in systematic_row how (cpu_cumsum 53 1024) w late_offset) with
                 | Ok out => existsb (Nat.eqb 41) out | _ => false end = true) by (destruct how; vm_compute; reflexivity).
    change (if false then Ok heavy_and_dead else normalize crude_exp sum_left heavy_and_dead) with (normalize crude_exp sum_left heavy_and_dead).
    destruct (let! w := normalize crude_exp sum_left heavy_and_dead in systematic_row how (cpu_cumsum 53 1024) w late_offset) as [out|]; [|discriminate].
    exists out. split; [reflexivity|]. apply existsb_exists in Ei. destruct Ei as (j & Hj & E). apply Nat.eqb_eq in E. now subst j.
Qed.
Print Assumptions C97_zero_weight_floats_refuted.

Example C97_nonvacuous : exponential (bpow radix2 (- 24)) (rounded_exp : f32 -> f32) /\ adds_up (sum_left : list f32 -> f32) /\
  INR (length some_weights) * bpow radix2 (- 24) <= / 8 /\ exists x, In x some_weights /\ log_weight x <> None.
Proof.
  split; [exact (rounded_exp_ok (prec := 24) (emax := 128))|]. split; [apply sum_left_ok|]. split.
  - simpl. lra.
  - exists Bone. split; [simpl; auto|]. discriminate.
Qed.

(* -------------------------------------------------------------------------------------------------------------------- *)

(** C98.  Normalised weights in floating point: as many as log weights, between 0 and 1, adding up to one and
    proportional to the exponentials of the log weights, up to rounding. *)
Theorem C98_normalize_floats :
  forall (prec emax : Z) (Hp : Prec_gt_0 prec) (He : Prec_lt_emax prec emax)
         (fexp : binary_float prec emax -> binary_float prec emax) fsum weights alpha,
    (prec + 3 <= emax)%Z -> exponential alpha fexp -> adds_up fsum ->
    INR (length weights) * bpow radix2 (- prec) <= / 8 ->
    (exists x, In x weights /\ log_weight x <> None) ->
    exists p, normalize fexp fsum weights = Ok p /\ length p = length weights /\
      (forall x, In x p -> is_finite x = true /\ 0 <= B2R x <= 1) /\
      Rabs (Rsum (map B2R p) - 1) <= 4 * INR (length weights) * bpow radix2 (- prec) /\
      forall i, (i < length weights)%nat ->
        Rabs (B2R (nth i p B754_nan) - weight (nth i weights B754_nan) / Rsum (map weight weights)) <=
          2 * INR (length weights) * alpha + 6 * INR (length weights) * bpow radix2 (- prec).
Proof.
  intros prec emax Hp He fexp fsum weights alpha H3 Hexp Hsum Hsmall Hus.
  assert (Hbig : INR (length weights) <= bpow radix2 prec).
  { apply Rmult_le_reg_r with (bpow radix2 (- prec)); [apply bpow_gt_0|]. rewrite <- bpow_plus, Z.add_opp_diag_r. simpl. lra. }
  exists (map (prob fexp fsum weights) weights). split; [now apply (normalize_ok H3 fexp fsum alpha)|].
  split; [apply map_length|]. split; [|split].
  - intros x Hx. apply in_map_iff in Hx. destruct Hx as (y & <- & Hy). now apply (prob_ok H3 fexp fsum alpha Hexp Hsum weights Hus Hbig Hsmall).
  - exact (sum_near_1 H3 fexp fsum alpha Hexp Hsum weights Hus Hbig Hsmall).
  - intros i Hi. rewrite (nth_indep _ B754_nan (prob fexp fsum weights B754_nan)) by (rewrite map_length; exact Hi). rewrite map_nth.
    exact (prob_error H3 fexp fsum alpha Hexp Hsum weights Hus Hbig Hsmall (nth i weights B754_nan) ltac:(now apply nth_In)).
Qed.
Print Assumptions C98_normalize_floats.

Example C98_nonvacuous : (24 + 3 <= 128)%Z /\ exponential (bpow radix2 (- 24)) (rounded_exp : f32 -> f32) /\
  adds_up (sum_left : list f32 -> f32) /\ INR (length some_weights) * bpow radix2 (- 24) <= / 8 /\
  exists x, In x some_weights /\ log_weight x <> None.
Proof. split; [lia|]. exact C97_nonvacuous. Qed.

(* -------------------------------------------------------------------------------------------------------------------- *)

(** C99.  The effective sample size in floating point: between 1 and the number of particles up to rounding, and its
    reciprocal is the sum of the squares of the normalised weights up to rounding. *)
Theorem C99_ess_floats_partial :
  forall (prec emax : Z) (Hp : Prec_gt_0 prec) (He : Prec_lt_emax prec emax)
         (fexp : binary_float prec emax -> binary_float prec emax) fsum weights alpha,
    (prec + 3 <= emax)%Z -> (2 * prec <= emax + 9)%Z -> exponential alpha fexp -> adds_up fsum ->
    INR (length weights) * bpow radix2 (- prec) <= / 64 ->
    (exists x, In x weights /\ log_weight x <> None) ->
    exists ess, get_ess fexp fsum weights false = Ok ess /\ is_finite ess = true /\
      1 - 9 * (INR (length weights) * bpow radix2 (- prec)) <= B2R ess <=
        INR (length weights) * (1 + 20 * (INR (length weights) * bpow radix2 (- prec))) /\
      Rabs (/ B2R ess - Rsum (map (fun x => (weight x / Rsum (map weight weights)) * (weight x / Rsum (map weight weights))) weights)) <=
        INR (length weights) * (6 * alpha + 26 * bpow radix2 (- prec)).
Proof.
  intros prec emax Hp He fexp fsum weights alpha H3 H4 Hexp Hsum Hsmall Hus.
  set (n := INR (length weights)) in *. set (eps := bpow radix2 (- prec)) in *.
  assert (Hsmall8 : n * eps <= / 8) by lra.
  destruct (C98_normalize_floats prec emax Hp He fexp fsum weights alpha H3 Hexp Hsum Hsmall8 Hus) as (p & En & Lp & H01 & Hone & Hacc).
  fold n eps in Hone, Hacc.
  assert (Hne : p <> []).
  { intros ->. destruct Hus as (x & Hx & _). destruct weights; [destruct Hx|discriminate Lp]. }
  assert (H01' : forall x, In x p -> unit_interval x) by (intros x Hx; now apply H01).
  assert (Hs' : INR (length p) * FloatProofs.eps (prec := prec) <= / 64) by (rewrite Lp; exact Hsmall).
  assert (Ho' : Rabs (Rsum (map B2R p) - 1) <= 4 * INR (length p) * FloatProofs.eps (prec := prec)) by (rewrite Lp; exact Hone).
  exists (ess fsum p). split; [unfold get_ess; rewrite En; reflexivity|].
  split; [now apply (ess_ok H3 H4 fsum Hsum p Hne H01' Hs' Ho')|].
  pose proof (ess_lower H3 H4 fsum Hsum p Hne H01' Hs' Ho') as L. pose proof (ess_upper H3 H4 fsum Hsum p Hne H01' Hs' Ho') as U.
  pose proof (ess_accurate H3 H4 fsum Hsum p Hne H01' Hs' Ho') as A. pose proof (Q_upper fsum p Hne H01' Hs' Ho') as QU.
  rewrite Lp in *. fold n in L, U, A, QU. change (FloatProofs.eps (prec := prec)) with eps in *.
  split; [split; assumption|].
  assert (Pe : 0 < eps) by apply bpow_gt_0. assert (Pn : 1 <= n).
  { apply (le_INR 1). rewrite <- Lp. destruct p; [congruence|simpl; lia]. }
  set (W := Rsum (map weight weights)) in *.
  set (share := fun x : binary_float prec emax => weight x / W).
  set (dl := 2 * n * alpha + 6 * n * eps) in *.
  assert (PW : 0 < W /\ forall x, In x weights -> 0 <= share x).
  { assert (P0 : forall x, 0 <= weight (x : binary_float prec emax)) by (intros x; unfold weight; destruct (log_weight x); [left; apply exp_pos|lra]).
    assert (P1 : 0 < W).
    { destruct Hus as (x & Hx & Hu). apply Rlt_le_trans with (weight x).
      - unfold weight. destruct (log_weight x); [apply exp_pos|congruence].
      - apply Rsum_in; [now apply in_map|]. intros y Hy. apply in_map_iff in Hy. destruct Hy as (z & <- & _). apply P0. }
    split; [exact P1|]. intros x _. unfold share. apply Rdiv_le_0_compat; [apply P0|exact P1]. }
  destruct PW as (PW & Psh).
  assert (Ssh : Rsum (map share weights) = 1).
  { assert (E : forall l, Rsum (map share l) = Rsum (map weight l) / W).
    { intros l. unfold Rsum, share, Rdiv. induction l as [|a l IH]; simpl; [lra|]. rewrite IH. ring. }
    rewrite E. fold W. field. lra. }
  assert (Near : Rabs (Rsum (map (fun x => x * x) (map B2R p)) - Rsum (map (fun x => share x * share x) weights)) <= dl * (Rsum (map B2R p) + 1)).
  { rewrite <- Ssh.
    pose proof (squares_near (fun k => B2R (nth k p B754_nan)) (fun k => share (nth k weights B754_nan)) dl (seq 0 (length weights))) as H.
    assert (Es : forall (A B : Type) (f : A -> B) (l : list A) (d : A), map (fun k => f (nth k l d)) (seq 0 (length l)) = map f l).
    { intros A0 B0 f l d. rewrite <- (map_map (fun k => nth k l d) f). f_equal. apply nth_ext with d d; [now rewrite map_length, seq_length|].
      intros k Hk. rewrite map_length, seq_length in Hk. rewrite (nth_indep _ d (nth 0 l d)) by (rewrite map_length, seq_length; exact Hk).
      rewrite (map_nth (fun k => nth k l d)), seq_nth by exact Hk. reflexivity. }
    rewrite (Es _ _ share) in H. rewrite (Es _ _ (fun x => share x * share x) weights) in H. rewrite <- Lp in H at 1.
    rewrite (Es _ _ (fun x => B2R x * B2R x) p) in H. rewrite <- Lp in H. rewrite (Es _ _ B2R p) in H. rewrite map_map.
    apply H. intros k Hk. apply in_seq in Hk. split; [|split].
    - apply H01. apply nth_In. lia.
    - apply Psh. apply nth_In. lia.
    - apply Hacc. lia. }
  set (Q := Rsum (map (fun x => x * x) (map B2R p))) in *. fold share.
  change (map (fun x => weight x / W * (weight x / W)) weights) with (map (fun x => share x * share x) weights).
  set (Z := Rsum (map (fun x => share x * share x) weights)) in *.
  replace (/ B2R (ess fsum p) - Z) with ((/ B2R (ess fsum p) - Q) + (Q - Z)) by ring.
  eapply Rle_trans; [apply Rabs_triang|]. apply Rabs_le_between in Hone.
  assert (Pdl : 0 <= dl).
  { specialize (Hacc 0%nat ltac:(rewrite <- Lp; destruct p; [congruence|simpl; lia])). eapply Rle_trans; [apply Rabs_pos|exact Hacc]. }
  set (t := n * eps) in *. replace (4 * n * eps) with (4 * t) in Hone by (unfold t; ring).
  assert (0 <= t) by (apply Rmult_le_pos; lra).
  assert (7 * t * Q <= 7 * t * (17 / 16)) by (apply Rmult_le_compat_l; lra).
  assert (dl * (Rsum (map B2R p) + 1) <= dl * (33 / 16)) by (apply Rmult_le_compat_l; lra).
  assert (Edl : dl = 2 * (n * alpha) + 6 * t) by (unfold dl, t; ring).
  assert (0 <= n * alpha).
  { apply Rmult_le_pos; [lra|]. destruct Hexp as (_ & _ & _ & E3). destruct (E3 (B754_zero false) eq_refl ltac:(simpl; lra)) as (_ & _ & T).
    eapply Rle_trans; [apply Rabs_pos|exact T]. }
  replace (n * (6 * alpha + 26 * eps)) with (6 * (n * alpha) + 26 * t) by (unfold t; ring). rewrite Edl in *. lra.
Qed.
Print Assumptions C99_ess_floats_partial.

(** Exactly between 1 and the number of particles it is not: 17 particles of the same weight have an effective sample
    size above 17; 3 particles of the same weight have one below 3. *)
Theorem C99_ess_range_floats_refuted :
  forall fexp, (forall s, fexp (B754_zero s) = Bone) -> fexp lowest32 = B754_zero false ->
    (exists ess, get_ess fexp sum_left (repeat (B754_zero false : f32) 17) false = Ok ess /\ 17 < B2R ess) /\
    (exists ess, get_ess fexp sum_left (repeat (B754_zero false : f32) 3) false = Ok ess /\ B2R ess < 3).
Proof.
  intros fexp H1 H2.
  assert (En : forall k, all_plain (repeat (B754_zero false) k) = true -> get_ess fexp sum_left (repeat (B754_zero false : f32) k) false = get_ess crude_exp sum_left (repeat (B754_zero false) k) false).
  { intros k Hk. unfold get_ess. now rewrite (normalize_plain fexp sum_left (repeat (B754_zero false) k) H1 H2 Hk). }
  rewrite !En by (vm_compute; reflexivity). split.
  - assert (Ei : match get_ess crude_exp sum_left (repeat (B754_zero false) 17) false with Ok e => B2SF e | _ => SpecFloat.S754_nan end = SpecFloat.S754_finite false 8912898 (-19))
      by (vm_compute; reflexivity).
    destruct (get_ess crude_exp sum_left (repeat (B754_zero false) 17) false) as [e|]; [|discriminate]. exists e. split; [reflexivity|].
    rewrite <- SF2R_B2SF, Ei. float_lra.
  - assert (Ei : match get_ess crude_exp sum_left (repeat (B754_zero false) 3) false with Ok e => B2SF e | _ => SpecFloat.S754_nan end = SpecFloat.S754_finite false 12582911 (-22))
      by (vm_compute; reflexivity).
    destruct (get_ess crude_exp sum_left (repeat (B754_zero false) 3) false) as [e|]; [|discriminate]. exists e. split; [reflexivity|].
    rewrite <- SF2R_B2SF, Ei. float_lra.
Qed.
Print Assumptions C99_ess_range_floats_refuted.

Example C99_nonvacuous : (2 * 24 <= 128 + 9)%Z /\ exponential (bpow radix2 (- 24)) (rounded_exp : f32 -> f32) /\
  adds_up (sum_left : list f32 -> f32) /\ INR (length some_weights) * bpow radix2 (- 24) <= / 64 /\
  exists x, In x some_weights /\ log_weight x <> None.
Proof. split; [lia|]. destruct C97_nonvacuous as (H1 & H2 & _ & H4). split; [exact H1|]. split; [exact H2|]. split; [simpl; lra|exact H4]. Qed.

(* -------------------------------------------------------------------------------------------------------------------- *)

(** torch.multinomial draws as many valid indices as it is asked for (of something). *)
Definition draws {prec emax} (draw : list (binary_float prec emax) -> nat -> list nat) : Prop :=
  forall p m, p <> [] -> length (draw p m) = m /\ forall i, In i (draw p m) -> (i < length p)%nat.

(** C100.  What residual resampling returns, if it returns: as many valid indices as there are weights, and of every
    particle at least the number of particles times its weight, rounded down, up to rounding errors. *)
Theorem C100_residual_floats_partial :
  forall (prec emax : Z) (Hp : Prec_gt_0 prec) (He : Prec_lt_emax prec emax)
         (fexp : binary_float prec emax -> binary_float prec emax) fsum draw weights alpha out,
    (prec + 4 <= emax)%Z -> exponential alpha fexp -> adds_up fsum -> draws draw ->
    INR (length weights) * bpow radix2 (- prec) <= / 8 ->
    (exists x, In x weights /\ log_weight x <> None) ->
    residual fexp fsum draw weights false = Ok out ->
    length out = length weights /\ (forall i, In i out -> (i < length weights)%nat) /\
    forall i, (i < length weights)%nat ->
      INR (length weights) * (weight (nth i weights B754_nan) / Rsum (map weight weights)) - 1 -
        INR (length weights) * INR (length weights) * (2 * alpha + 8 * bpow radix2 (- prec)) < INR (copies i out).
Proof.
  intros prec emax Hp He fexp fsum draw weights alpha out H4 Hexp Hsum Hdraw Hsmall Hus Hout.
  destruct (C98_normalize_floats prec emax Hp He fexp fsum weights alpha ltac:(lia) Hexp Hsum Hsmall Hus) as (p & En & Lp & H01 & Hone & Hacc).
  unfold residual in Hout. rewrite En in Hout. simpl bind in Hout.
  assert (Hbig : INR (length p) <= bpow radix2 prec).
  { rewrite Lp. apply Rmult_le_reg_r with (bpow radix2 (- prec)); [apply bpow_gt_0|]. rewrite <- bpow_plus, Z.add_opp_diag_r. simpl. lra. }
  assert (Hpos : (0 < length p)%nat).
  { rewrite Lp. destruct Hus as (x & Hx & _). destruct weights; [destruct Hx|simpl; lia]. }
  destruct (residual_row_ok fsum draw p Hbig H4 out Hout Hdraw) as (A & B & C). rewrite Lp in *.
  split; [exact A|]. split; [exact B|]. intros i Hi. destruct (C i Hi) as (C1 & _). apply le_INR in C1.
  assert (Hu : unit_interval (nth i p B754_nan)) by (apply H01, nth_In; lia).
  pose proof (whole_lower p ltac:(now rewrite Lp) H4 ltac:(lia) (nth i p B754_nan) Hu) as L. specialize (Hacc i Hi).
  rewrite Lp in L. change (FloatProofs.eps (prec := prec)) with (bpow radix2 (- prec)) in L.
  set (n := INR (length weights)) in *. set (eps := bpow radix2 (- prec)) in *.
  set (x := B2R (nth i p B754_nan)) in *. set (y := weight (nth i weights B754_nan) / Rsum (map weight weights)) in *.
  assert (Pn : 1 <= n) by (apply (le_INR 1); lia). assert (Pe : 0 < eps) by apply bpow_gt_0.
  apply Rabs_le_between in Hacc.
  assert (n * y <= n * (x + (2 * n * alpha + 6 * n * eps))) by (apply Rmult_le_compat_l; lra).
  assert (n * eps <= n * n * eps).
  { rewrite Rmult_assoc. rewrite <- (Rmult_1_l (n * eps)) at 1. apply Rmult_le_compat_r; [|lra]. apply Rmult_le_pos; lra. }
  lra.
Qed.
Print Assumptions C100_residual_floats_partial.

(** And it does return as soon as one particle is heavier than the average by more than the rounding errors. *)
Theorem C100_residual_succeeds_floats :
  forall (prec emax : Z) (Hp : Prec_gt_0 prec) (He : Prec_lt_emax prec emax)
         (fexp : binary_float prec emax -> binary_float prec emax) fsum draw weights alpha,
    (prec + 4 <= emax)%Z -> exponential alpha fexp -> adds_up fsum ->
    16 * (INR (length weights) * INR (length weights) * bpow radix2 (- prec)) <= 1 ->
    (exists i, (i < length weights)%nat /\
       / INR (length weights) + (2 * INR (length weights) * alpha + 6 * INR (length weights) * bpow radix2 (- prec)) <=
       weight (nth i weights B754_nan) / Rsum (map weight weights)) ->
    exists out, residual fexp fsum draw weights false = Ok out.
Proof.
  intros prec emax Hp He fexp fsum draw weights alpha H4 Hexp Hsum Hsmall (i & Hi & Hheavy).
  set (n := INR (length weights)) in *. set (eps := bpow radix2 (- prec)) in *.
  assert (Pn : 1 <= n) by (apply (le_INR 1); lia). assert (Pe : 0 < eps) by apply bpow_gt_0.
  assert (Pne : 0 < n * eps) by (apply Rmult_lt_0_compat; lra).
  assert (Hle : n * eps <= n * n * eps).
  { rewrite Rmult_assoc. rewrite <- (Rmult_1_l (n * eps)) at 1. apply Rmult_le_compat_r; lra. }
  assert (Ha : 0 <= alpha).
  { destruct Hexp as (_ & _ & _ & E3). destruct (E3 (B754_zero false) eq_refl ltac:(simpl; lra)) as (_ & _ & T).
    eapply Rle_trans; [apply Rabs_pos|exact T]. }
  assert (Hus : exists x, In x weights /\ log_weight x <> None).
  { exists (nth i weights B754_nan). split; [now apply nth_In|]. intros E. unfold weight at 1 in Hheavy. rewrite E in Hheavy.
    unfold Rdiv in Hheavy. rewrite Rmult_0_l in Hheavy. assert (0 < / n) by (apply Rinv_0_lt_compat; lra).
    assert (0 <= 2 * n * alpha) by (apply Rmult_le_pos; lra). lra. }
  destruct (C98_normalize_floats prec emax Hp He fexp fsum weights alpha ltac:(lia) Hexp Hsum ltac:(fold n eps; lra) Hus) as (p & En & Lp & H01 & Hone & Hacc).
  unfold residual. rewrite En. simpl bind.
  apply residual_row_succeeds; try assumption.
  - rewrite Lp. fold n. apply Rmult_le_reg_r with eps; [exact Pe|]. unfold eps at 2. rewrite <- bpow_plus, Z.add_opp_diag_r. simpl. lra.
  - lia.
  - rewrite Lp. exact Hone.
  - rewrite Lp. exact Hsmall.
  - exists (nth i p B754_nan). split; [apply nth_In; lia|]. rewrite Lp. fold n. specialize (Hacc i Hi). apply Rabs_le_between in Hacc.
    fold n eps in Hacc. apply Rle_trans with (n * / n); [rewrite Rinv_r; lra|]. apply Rmult_le_compat_l; lra.
Qed.
Print Assumptions C100_residual_succeeds_floats.

(** Otherwise it need not: residual resampling of 41 particles of the same weight raises (41 times the rounded 1/41 is
    below 1, so no particle gets a sure copy, and the remainders are divided by 0). *)
Theorem C100_residual_floats_refuted :
  forall fexp draw, (forall s, fexp (B754_zero s) = Bone) -> fexp lowest32 = B754_zero false ->
    residual fexp sum_left draw (repeat (B754_zero false : f32) 41) false = Raise RuntimeError.
Proof.
  intros fexp draw H1 H2. unfold residual.
  rewrite (normalize_plain fexp sum_left (repeat (B754_zero false) 41) H1 H2) by (vm_compute; reflexivity).
  vm_compute. reflexivity.
Qed.
Print Assumptions C100_residual_floats_refuted.

Definition heavy_and_light : list f32 := [B754_infinity true; Bone].
Example C100_nonvacuous : (24 + 4 <= 128)%Z /\ exponential (bpow radix2 (- 24)) (rounded_exp : f32 -> f32) /\
  adds_up (sum_left : list f32 -> f32) /\ draws (fun (p : list f32) m => repeat (length p - 1)%nat m) /\
  INR (length heavy_and_light) * bpow radix2 (- 24) <= / 8 /\
  16 * (INR (length heavy_and_light) * INR (length heavy_and_light) * bpow radix2 (- 24)) <= 1 /\
  exists i, (i < length heavy_and_light)%nat /\
    / INR (length heavy_and_light) + (2 * INR (length heavy_and_light) * bpow radix2 (- 24) + 6 * INR (length heavy_and_light) * bpow radix2 (- 24)) <=
    weight (nth i heavy_and_light B754_nan) / Rsum (map weight heavy_and_light).
Proof.
  split; [lia|]. split; [exact (rounded_exp_ok (prec := 24) (emax := 128))|]. split; [apply sum_left_ok|]. split; [|split; [|split]].
  - intros p m Hp. split; [apply repeat_length|]. intros i Hi. apply repeat_spec in Hi. destruct p; [congruence|simpl in *; lia].
  - simpl. lra.
  - simpl. lra.
  - exists 1%nat. split; [simpl; lia|].
    assert (W1 : weight (Bone : f32) = exp 1) by (change (weight (Bone : f32)) with (exp (B2R (Bone : f32))); now rewrite Bone_R).
    set (b := weight (B754_infinity true : f32)).
    assert (Hb : 0 < b <= 1).
    { unfold b, weight, log_weight. split; [apply exp_pos|]. left. rewrite <- exp_0. apply exp_increasing.
      assert (E : B2SF (Bmax_float : f32) = SpecFloat.S754_finite false (2 ^ 24 - 1) 104) by (vm_compute; reflexivity).
      rewrite <- SF2R_B2SF, E. unfold SF2R. assert (0 < F2R (Float radix2 (cond_Zopp false (Z.pos (2 ^ 24 - 1))) 104)); [|lra]. now apply F2R_gt_0. }
    unfold heavy_and_light, Rsum. simpl length. simpl nth. simpl map. simpl fold_right. fold b. rewrite W1.
    pose proof (exp_ineq1 1 ltac:(lra)) as E1.
    apply Rle_trans with (2 / 3); [simpl; lra|]. apply (Rle_div_r (2 / 3) (exp 1) (b + (exp 1 + 0))); lra.
Qed.
