(** Property C121 (pyfilter/resampling.py): which of the resampling methods is the more accurate one. *)
From Coq Require Import Reals List Bool Arith ZArith Lra Lia Psatz.
From Coquelicot Require Import Coquelicot.
From Verif.Model Require Import Base Xf Tensor Weights Resampling.
From Verif.Spec Require Import WeightsSpec ResamplingSpec ParticleSpec UnbiasedSpec ConvergeSpec ResampleCompareSpec.
From Verif.Proofs Require Import WeightsProofs MomentsProofs ResamplingProofs ParticleProofs UnbiasedProofs UnbiasedFilter ConvergeProofs.
From Verif.Props Require Import ResamplingProps ResampleMeanProps ResampleErrorProps.
Import ListNotations.
Open Scope R_scope.

(** The mean squared error of residual resampling. *)
Theorem C121_residual_error : forall lowest A (L : law A) draw (W : list R) F, law_ok L -> independent_multinomial L (length W) draw -> prob_vec W ->
  averages L (fun a => square (error_of W F (selected1 (residual lowest (draw a) (W1 (map Fin W)) true)))) (residual_error W F).
Proof.
  intros lowest A L draw w F HL Hd Hw.
  set (n := length w).
  assert (Hne : w <> []) by now apply prob_vec_nonempty.
  assert (Hn : 0 < INR n) by (apply lt_0_INR; unfold n; destruct w; [congruence|simpl; lia]).
  set (mw := map (fun x => INR n * x) w). set (fl := map Int_part mw). set (num := fold_right Z.add 0%Z fl).
  assert (Hmw : forall x, In x mw -> 0 <= x).
  { intros x Hx. apply in_map_iff in Hx. destruct Hx as (y & <- & Hy). apply Rmult_le_pos; [lra|]. now apply (proj1 Hw). }
  assert (Hfl : forall z, In z fl -> (0 <= z)%Z).
  { intros z Hz. apply in_map_iff in Hz. destruct Hz as (y & <- & Hy). apply Int_part_floor. now apply Hmw. }
  assert (Hsum : Rsum mw = INR n).
  { unfold mw. rewrite (Rsum_map_scale (fun x => x)), map_id, (proj2 Hw). lra. }
  destruct (Rsum_le_INR mw Hmw Hfl) as [B1 B2]. fold fl in B1, B2. fold num in B1, B2.
  assert (Hmwne : mw <> []) by (unfold mw; intros H; apply map_eq_nil in H; congruence).
  specialize (B2 Hmwne). rewrite Hsum in B1, B2.
  assert (Elen : length mw = n) by (unfold mw; apply map_length). rewrite Elen in B2.
  rewrite INR_IZR_INZ in B1. apply le_IZR in B1.
  assert (Hpos : (0 < num)%Z) by (apply lt_IZR; lra).
  assert (Ei : forall i, (i < n)%nat -> nth i mw 0 = INR n * nth i w 0).
  { intros i Hi. unfold mw. rewrite (nth_indep _ 0 (INR n * 0)) by now rewrite map_length. now rewrite (map_nth (fun x => INR n * x)). }
  destruct (repeat_interleave_spec (map Z.to_nat fl) 0) as (_ & L2 & L3).
  assert (Ef : forall i, (i < n)%nat -> INR (copies i (repeat_interleave 0 (map Z.to_nat fl))) = IZR (Int_part (nth i mw 0))).
  { intros i Hi. specialize (L3 i). cbn [Nat.add] in L3. rewrite L3.
    unfold fl. rewrite map_map, (nth_indep _ 0%nat (Z.to_nat (Int_part 0))) by (rewrite map_length, Elen; exact Hi).
    rewrite (map_nth (fun x => Z.to_nat (Int_part x))), INR_IZR_INZ, Z2Nat.id; [reflexivity|].
    apply Hfl, in_map, nth_In. now rewrite Elen. }
  assert (Lfl : length (map Z.to_nat fl) = n) by (unfold fl; now rewrite !map_length).
  set (fix_ := repeat_interleave 0 (map Z.to_nat fl)).
  assert (Efix : Rsum (map F fix_) = sumto n (fun i => IZR (Int_part (nth i mw 0)) * F i)).
  { rewrite (sum_copies n F fix_).
    - apply sumto_ext. intros i Hi. unfold fix_. now rewrite Ef.
    - apply Forall_forall. intros i Hi. apply L2 in Hi. lia. }
  assert (E : forall a, selected1 (residual lowest (draw a) (W1 (map Fin w)) true) =
    if (num =? Z.of_nat n)%Z then fix_
    else match draw a (map Fin (map (fun x => (x - IZR (Int_part x)) / IZR num) mw)) (n - Z.to_nat num)%nat with
         | Ok extra => fix_ ++ extra | Raise _ => [] end).
  { intros a. unfold residual, wrapper, residual_rows. cbn [bind]. rewrite finite_row_fin. unfold residual_row. fold n. fold mw. fold fl. fold num.
    replace (existsb (fun z => (z <? 0)%Z) fl) with false.
    2: { symmetry. destruct (existsb _ fl) eqn:Ee; [|reflexivity]. apply existsb_exists in Ee. destruct Ee as (z & Hz & Ez). apply Z.ltb_lt in Ez. apply Hfl in Hz. lia. }
    destruct (Z.of_nat n <? num)%Z eqn:E2; [apply Z.ltb_lt in E2; lia|].
    destruct (num =? Z.of_nat n)%Z; [reflexivity|]. destruct (num =? 0)%Z eqn:E4; [apply Z.eqb_eq in E4; lia|].
    rewrite map_map. destruct (draw a _ _); reflexivity. }
  assert (Ew : sum_below n (fun i => nth i w 0 * F i) = / INR n * sumto n (fun i => nth i mw 0 * F i)).
  { rewrite <- sumto_scal. apply (sumto_ext n). intros i Hi. rewrite Ei by exact Hi. field. lra. }
  assert (Elo : forall i, (i < n)%nat -> left_over w i = nth i mw 0 - IZR (Int_part (nth i mw 0))).
  { intros i Hi. rewrite Ei by exact Hi. reflexivity. }
  destruct (num =? Z.of_nat n)%Z eqn:E3.
  - apply Z.eqb_eq in E3.
    assert (Hz : forall l, (forall x, In x l -> In x mw) -> Rsum l = IZR (fold_right Z.add 0%Z (map Int_part l)) -> forall x, In x l -> x = IZR (Int_part x)).
    { induction l as [|a l IH]; intros Hl Hs x Hx; [destruct Hx|]. cbn [map fold_right] in Hs. rewrite plus_IZR in Hs. unfold Rsum in Hs. cbn [fold_right] in Hs.
      destruct (base_Int_part a) as [A1 _]. destruct (Rsum_le_INR l) as [A2 _].
      - intros y Hy. apply Hmw, Hl. now right.
      - intros z Hz. apply in_map_iff in Hz. destruct Hz as (y & <- & Hy). apply Hfl, in_map, Hl. now right.
      - unfold Rsum in A2. destruct Hx as [<-|Hx]; [lra|]. apply IH; [intros; apply Hl; now right|unfold Rsum; lra|exact Hx]. }
    replace (residual_error w F) with 0.
    2: { assert (Z0 : forall i, (i < n)%nat -> left_over w i = 0).
         { intros i Hi. rewrite Elo by exact Hi. rewrite <- (Hz mw); [ring|auto| |apply nth_In; now rewrite Elen]. fold fl. fold num. rewrite Hsum, E3, INR_IZR_INZ. reflexivity. }
         unfold residual_error. fold n. change sum_below with sumto. rewrite !(sumto_0 n) by (intros i Hi; rewrite Z0 by exact Hi; ring). unfold Rdiv. ring. }
    apply (averages_ext L HL (fun _ => 0)); [|now apply averages_const]. intros a _. rewrite E.
    unfold error_of. fold n. rewrite Efix, Ew.
    rewrite (sumto_ext n (fun i => IZR (Int_part (nth i mw 0)) * F i) (fun i => nth i mw 0 * F i)).
    + unfold square. ring.
    + intros i Hi. rewrite <- (Hz mw); [reflexivity|auto| |apply nth_In; now rewrite Elen]. fold fl. fold num. rewrite Hsum, E3, INR_IZR_INZ. reflexivity.
  - apply Z.eqb_neq in E3.
    set (p := map (fun x => (x - IZR (Int_part x)) / IZR num) mw) in *. set (m := (n - Z.to_nat num)%nat) in *.
    assert (Hnp : 0 < IZR num) by (apply IZR_lt; lia).
    assert (Hm : INR m = INR n - IZR num).
    { unfold m. rewrite minus_INR by lia. now rewrite (INR_IZR_INZ (Z.to_nat num)), Z2Nat.id by lia. }
    assert (Hlt : IZR num < INR n) by (rewrite INR_IZR_INZ; apply IZR_lt; lia).
    assert (Sp : Rsum p = (INR n - IZR num) / IZR num) by (unfold p; rewrite fraction_sum, Hsum; reflexivity).
    assert (Sp0 : 0 < Rsum p) by (rewrite Sp; apply Rmult_lt_0_compat; [lra|now apply Rinv_0_lt_compat]).
    assert (Lp : length p = n) by (unfold p; now rewrite map_length).
    assert (Pp : forall x, In x p -> 0 <= x).
    { intros x Hx. apply in_map_iff in Hx. destruct Hx as (y & <- & Hy). destruct (base_Int_part y). apply Rmult_le_pos; [lra|]. left. now apply Rinv_0_lt_compat. }
    assert (Ep : forall i, (i < n)%nat -> INR m * nth i (share p) 0 = nth i mw 0 - IZR (Int_part (nth i mw 0))).
    { intros i Hi. unfold share. rewrite (nth_map' (fun x => x / Rsum p) p i 0 0) by now rewrite Lp. unfold p at 1. rewrite (nth_map' _ mw i 0 0) by now rewrite Elen.
      rewrite Sp, Hm. field. lra. }
    destruct (Hd p m F Pp Sp0 Lp ltac:(unfold m; lia)) as [Hok Hav].
    pose proof (averages_scal L HL (square (/ INR n)) _ _ Hav) as H.
    replace (residual_error w F) with (square (/ INR n) * (INR m * variance (share p) F)).
    + refine (averages_ext L HL _ _ _ _ H). intros a Ha. rewrite E. destruct (Hok a Ha) as (l & El & _). rewrite El. cbn [row].
      unfold error_of. fold n. rewrite map_app, Rsum_app, Efix, Ew.
      change sum_below with sumto. rewrite <- (sumto_scal n (INR m)).
      rewrite (sumto_ext n (fun i => nth i mw 0 * F i) (fun i => IZR (Int_part (nth i mw 0)) * F i + INR m * (nth i (share p) 0 * F i))).
      * rewrite sumto_plus. unfold square. ring.
      * intros i Hi. rewrite <- Rmult_assoc, Ep by exact Hi. ring.
    + assert (Hm0 : INR m <> 0) by (rewrite Hm; lra).
      assert (T1 : sumto n (left_over w) = INR m).
      { rewrite (sumto_ext n (left_over w) (fun i => INR m * nth i (share p) 0)) by (intros i Hi; rewrite Elo, Ep by exact Hi; reflexivity).
        rewrite sumto_scal. pose proof (weights_sum (share p) (share_prob p Pp Sp0)) as S1. rewrite length_share, Lp in S1. rewrite S1. ring. }
      assert (T2 : forall G, sumto n (fun i => left_over w i * G i) = INR m * sumto n (fun i => nth i (share p) 0 * G i)).
      { intros G. rewrite <- sumto_scal. apply sumto_ext. intros i Hi. rewrite Elo, <- Ep by exact Hi. ring. }
      unfold residual_error, variance. fold n. rewrite length_share, Lp. change sum_below with sumto. rewrite T1, (T2 F), (T2 (fun i => F i * F i)).
      unfold square. field. split; [exact Hm0|lra].
Qed.
Print Assumptions C121_residual_error.

(** Splitting N times the weights into whole copies and what is left never increases the error. *)
Lemma residual_le_variance W F : prob_vec W -> residual_error W F <= variance W F / INR (length W).
Proof.
  intros HW. set (n := length W).
  assert (Hn : 0 < INR n).
  { apply lt_0_INR. pose proof (prob_vec_nonempty W HW) as H. unfold n. destruct W; [congruence|simpl; lia]. }
  set (r := left_over W). set (k i := INR n * nth i W 0 - r i).
  assert (Hr : forall i, (i < n)%nat -> 0 <= r i) by (intros i _; unfold r, left_over; destruct (base_fp (INR (length W) * nth i W 0)); lra).
  assert (Hk : forall i, (i < n)%nat -> 0 <= k i).
  { intros i Hi. unfold k, r, left_over, frac_part. fold n.
    assert (0 <= INR n * nth i W 0) by (apply Rmult_le_pos; [lra|apply (proj1 HW), nth_In; exact Hi]).
    pose proof (Int_part_floor (INR n * nth i W 0) ltac:(lra)) as [H0 _]. apply IZR_le in H0. lra. }
  assert (split_ : forall G, sumto n (fun i => k i * G i) = INR n * sumto n (fun i => nth i W 0 * G i) - sumto n (fun i => r i * G i)).
  { intros G. rewrite <- sumto_scal, sumto_minus. apply sumto_ext. intros i _. unfold k. ring. }
  pose proof (split_ F) as S1. pose proof (split_ (fun i => F i * F i)) as S2.
  pose proof (split_ (fun _ => 1)) as S0. cbv beta in S0, S1, S2.
  rewrite (sumto_ext n (fun i => nth i W 0 * 1) (fun i => nth i W 0)) in S0 by (intros; ring).
  unfold n in S0 at 3. rewrite weights_sum in S0 by exact HW.
  rewrite (sumto_ext n (fun i => r i * 1) r) in S0 by (intros; ring).
  rewrite (sumto_ext n (fun i => k i * 1) k) in S0 by (intros; ring).
  set (K := sumto n k) in *. set (T := sumto n r) in *.
  assert (Cs : forall g c, (forall i, (i < n)%nat -> 0 <= g i) ->
    0 <= sumto n (fun i => g i * (F i * F i)) - 2 * c * sumto n (fun i => g i * F i) + c * c * sumto n g).
  { intros g c Hg. replace (_ + _) with (sumto n (fun i => g i * square (F i - c))).
    - apply sumto_pos. intros i Hi. apply Rmult_le_pos; [auto|apply square_nonneg].
    - rewrite <- !sumto_scal, sumto_minus, <- sumto_plus. apply sumto_ext. intros i _. unfold square. ring. }
  assert (HT : 0 <= T) by (now apply sumto_pos).
  set (A := sumto n (fun i => k i * F i)) in *. set (A2 := sumto n (fun i => k i * (F i * F i))) in *.
  set (B := sumto n (fun i => r i * F i)) in *. set (B2 := sumto n (fun i => r i * (F i * F i))) in *.
  unfold residual_error, variance. fold n. change sum_below with sumto. fold r. fold T. fold B. fold B2.
  set (M := sumto n (fun i => nth i W 0 * F i)) in *. unfold square at 1.
  set (M2 := sumto n (fun i => nth i W 0 * (F i * F i))) in *.
  (* with c the overall mean M: the sure copies have a nonnegative second moment about it, and what is left has its least one about its own mean *)
  pose proof (Cs k M Hk) as C1. fold A in C1. fold A2 in C1. fold K in C1.
  assert (C2 : B2 - B * B / T <= B2 - 2 * M * B + M * M * T).
  { destruct (Rle_lt_or_eq_dec 0 T HT) as [Tp|T0].
    - assert (0 <= T * square (M - B / T)) by (apply Rmult_le_pos; [exact HT|apply square_nonneg]).
      replace (T * square (M - B / T)) with (M * M * T - 2 * M * B + B * B / T) in H by (unfold square; field; lra). lra.
    - assert (B0 : B = 0).
      { assert (Z : forall m, (m <= n)%nat -> sumto m r <= 0 -> forall i, (i < m)%nat -> r i = 0).
        { induction m as [|m IH]; intros Hm Hs i Hi; [lia|]. rewrite sumto_S in Hs.
          assert (0 <= sumto m r) by (apply sumto_pos; intros; apply Hr; lia). pose proof (Hr m ltac:(lia)).
          destruct (Nat.eq_dec i m) as [->|]; [lra|]. apply IH; [lia|lra|lia]. }
        apply sumto_0. intros i Hi. rewrite (Z n (le_n n)); [ring|fold T; lra|exact Hi]. }
      rewrite B0, <- T0. unfold Rdiv. rewrite !Rmult_0_l, !Rmult_0_r. lra. }
  assert (Hk0 : K = INR n - T) by lra.
  assert (E1 : A = INR n * M - B) by exact S1. assert (E2 : A2 = INR n * M2 - B2) by exact S2.
  rewrite Hk0, E1, E2 in C1.
  replace ((M2 - square M) / INR n) with ((INR n * (M2 - M * M)) / (INR n * INR n)) by (unfold square; field; lra).
  apply Rmult_le_compat_r; [left; apply Rinv_0_lt_compat; nra|]. lra.
Qed.

(** Residual resampling is at least as accurate as multinomial resampling, whatever the weights and the function averaged. *)
Theorem C121_residual_better : forall lowest A (L : law A) draw (W : list R) F, law_ok L -> independent_multinomial L (length W) draw -> prob_vec W ->
  exists vr vm,
    averages L (fun a => square (error_of W F (selected1 (residual lowest (draw a) (W1 (map Fin W)) true)))) vr /\
    averages L (fun a => square (error_of W F (selected1 (multinomial lowest (fun _ => draw a) (W1 (map Fin W)) true)))) vm /\
    vr <= vm.
Proof.
  intros lowest A L draw W F HL Hd HW. exists (residual_error W F), (variance W F / INR (length W)).
  split; [now apply C121_residual_error|]. split; [now apply C95_multinomial|now apply residual_le_variance].
Qed.
Print Assumptions C121_residual_better.

(** Systematic resampling, the default, is not: for the alternating weights its mean squared error is 1/16 for every number of
    particles, that of multinomial resampling 3/(32 m) with 2m particles. *)
Lemma heavy_variance m : (0 < m)%nat -> variance (uneven m) heavy = 3 / 16.
Proof.
  intros Hm. unfold variance. rewrite length_uneven. change sum_below with sumto.
  rewrite (sumto_ext (2 * m) (fun i => nth i (uneven m) 0 * square (heavy i)) (fun i => nth i (uneven m) 0 * heavy i)).
  2: { intros i _. unfold heavy, square. destruct (Nat.even i); ring. }
  assert (E : forall k, (k <= m)%nat -> sumto (2 * k) (fun i => nth i (uneven m) 0 * heavy i) = INR k * (3 / (4 * INR m))).
  { induction k as [|k IH]; intros Hk; [cbn; lra|]. replace (2 * S k)%nat with (S (S (2 * k))) by lia. rewrite !sumto_S, IH by lia.
    rewrite !nth_uneven by lia. unfold heavy. rewrite Nat.even_succ, <- Nat.negb_even, Nat.even_mul. cbn [Nat.even orb negb]. rewrite S_INR. ring. }
  assert (0 < INR m) by now apply lt_0_INR.
  rewrite E by lia. unfold square. field. lra.
Qed.
Theorem C121_systematic_refuted : forall lowest A (L : law A) draw m, law_ok L -> independent_multinomial L (2 * m) draw -> (2 <= m)%nat ->
  exists vs vr vm,
    averages uniform (fun u => square (error_of (uneven m) heavy (selected1 (systematic lowest (fun _ => u) (W1 (map Fin (uneven m))) true None)))) vs /\
    averages L (fun a => square (error_of (uneven m) heavy (selected1 (residual lowest (draw a) (W1 (map Fin (uneven m))) true)))) vr /\
    averages L (fun a => square (error_of (uneven m) heavy (selected1 (multinomial lowest (fun _ => draw a) (W1 (map Fin (uneven m))) true)))) vm /\
    vs = / 16 /\ vm = 3 / (32 * INR m) /\ vr <= vm < vs.
Proof.
  intros lowest A L draw m HL Hd Hm. rewrite <- length_uneven in Hd. pose proof (uneven_prob m ltac:(lia)) as HW.
  assert (Hm2 : 2 <= INR m) by (apply (le_INR 2); exact Hm).
  assert (Ev : variance (uneven m) heavy / INR (length (uneven m)) = 3 / (32 * INR m)).
  { rewrite heavy_variance, length_uneven, mult_INR by lia. simpl (INR 2). field. lra. }
  exists (/ 16), (residual_error (uneven m) heavy), (3 / (32 * INR m)). split.
  - apply (averages_ext uniform uniform_ok (fun _ => / 16)); [|apply averages_const; exact uniform_ok].
    intros u Hu. cbn [uniform supp] in Hu. pose proof (uneven_error lowest m u ltac:(lia) ltac:(lra)) as E. set (e := error_of _ _ _) in *.
    unfold square. rewrite <- (Rabs_right (e * e)) by (apply Rle_ge, square_nonneg). rewrite Rabs_mult, E. lra.
  - split; [now apply C121_residual_error|]. split; [rewrite <- Ev; now apply C95_multinomial|].
    split; [reflexivity|]. split; [reflexivity|]. split; [rewrite <- Ev; now apply residual_le_variance|].
    apply (Rmult_lt_reg_r (32 * INR m)); [lra|]. unfold Rdiv. rewrite Rmult_assoc, Rinv_l by lra. lra.
Qed.
Print Assumptions C121_systematic_refuted.

(** It is whenever the function varies little along the particles: whatever the offset. *)
Theorem C121_systematic_partial : forall lowest A (L : law A) draw (W : list R) F u, law_ok L -> independent_multinomial L (length W) draw -> prob_vec W ->
  0 <= u < 1 -> square (variation (length W) F) <= INR (length W) * variance W F ->
  exists vm,
    averages L (fun a => square (error_of W F (selected1 (multinomial lowest (fun _ => draw a) (W1 (map Fin W)) true)))) vm /\
    square (error_of W F (selected1 (systematic lowest (fun _ => u) (W1 (map Fin W)) true None))) <= vm.
Proof.
  intros lowest A L draw W F u HL Hd HW Hu Hv. exists (variance W F / INR (length W)). split; [now apply C95_multinomial|].
  pose proof (C95_systematic_partial lowest W F u HW Hu) as H. set (e := error_of _ _ _) in *. set (n := length W) in *.
  assert (Hn : 0 < INR n).
  { apply lt_0_INR. pose proof (prob_vec_nonempty W HW) as H0. unfold n. destruct W; [congruence|simpl; lia]. }
  apply Rle_trans with (square (variation n F / INR n)).
  - unfold square. rewrite <- (Rabs_right (e * e)) by (apply Rle_ge, square_nonneg). rewrite Rabs_mult. pose proof (Rabs_pos e). nra.
  - replace (square (variation n F / INR n)) with (square (variation n F) * (/ INR n * / INR n)) by (unfold square; field; lra).
    replace (variance W F / INR n) with (INR n * variance W F * (/ INR n * / INR n)) by (field; lra).
    apply Rmult_le_compat_r; [|exact Hv]. assert (0 < / INR n) by now apply Rinv_0_lt_compat. nra.
Qed.
Print Assumptions C121_systematic_partial.

(** Two particles with weights 1/4 and 3/4, the first counted: a sure copy of the second, and one draw that is fair between the
    two, so an error of 1/16 against 3/32; torch's draws by inversion. *)
Example C121_nonvacuous : let W := [/4; 3/4] in let F i := match i with O => 1 | _ => 0 end in let L := independent uniform 2 (fun _ => /2) in
  prob_vec W /\ law_ok L /\ independent_multinomial L (length W) inverted /\
  (forall lowest, averages L (fun a => square (error_of W F (selected1 (residual lowest (inverted a) (W1 (map Fin W)) true)))) (/ 16)) /\
  (forall lowest, averages L (fun a => square (error_of W F (selected1 (multinomial lowest (fun _ => inverted a) (W1 (map Fin W)) true)))) (3 / 32)) /\
  independent_multinomial (independent uniform 4 (fun _ => /2)) (2 * 2) inverted.
Proof.
  intros W F L. destruct C95_nonvacuous as (HW & HL & HI & HM & _). fold W in HW, HM. fold L in HL, HI, HM.
  split; [exact HW|]. split; [exact HL|]. split; [exact HI|]. split; [|split; [exact HM|now apply inverted_independent]].
  intros lowest. replace (/ 16) with (residual_error W F); [now apply C121_residual_error|].
  assert (Iz : forall x z, IZR z <= x < IZR z + 1 -> Int_part x = z).
  { intros x z Hx. destruct (base_Int_part x) as [B1 B2]. assert (Int_part x < z + 1 /\ z < Int_part x + 1)%Z; [|lia].
    split; apply lt_IZR; rewrite plus_IZR; lra. }
  assert (I1 : Int_part (2 * / 4) = 0%Z) by (apply Iz; lra).
  assert (I2 : Int_part (2 * (3 / 4)) = 1%Z) by (apply Iz; lra).
  unfold residual_error, left_over, frac_part, sum_below, Rsum, W, F. cbn [length seq map fold_right nth]. simpl (INR 2).
  replace (1 + 1) with 2 by ring. rewrite I1, I2. field.
Qed.
(** Six particles with weights 1/4, 1/4 and four times 1/8, the first two counted: the indicator changes once, and six times its
    variance is 3/2. *)
Example C121_systematic_nonvacuous : let W := [/4; /4; /8; /8; /8; /8] in let F i := match i with O | 1%nat => 1 | _ => 0 end in
  prob_vec W /\ law_ok (independent uniform 6 (fun _ => /2)) /\ independent_multinomial (independent uniform 6 (fun _ => /2)) (length W) inverted /\
  square (variation (length W) F) = 1 /\ INR (length W) * variance W F = 3 / 2.
Proof.
  intros W F. split; [split; [intros x Hx; cbn in Hx; intuition lra|unfold W, Rsum; simpl; lra]|].
  split; [apply independent_ok; [exact uniform_ok|intros; cbn; lra]|]. split; [now apply inverted_independent|]. split.
  - unfold variation, sum_below, Rsum, F, W, square. cbn [length Nat.sub seq map fold_right].
    rewrite Rminus_0_l, Rabs_Ropp, Rabs_R1. replace (1 - 1) with 0 by ring. rewrite !Rminus_0_r, !Rabs_R0. ring.
  - unfold variance, sum_below, Rsum, F, W, square. cbn [length seq map fold_right nth]. simpl (INR 6). lra.
Qed.
