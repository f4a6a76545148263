(** normalize in floating point arithmetic. *)
From Coq Require Import ZArith Reals List Bool Lia Lra Permutation.
From Flocq Require Import Core.Core IEEE754.BinarySingleNaN.
From Coquelicot Require Import Rcomplements.
From Verif.Model Require Import Base FloatResampling.
From Verif.Spec Require Import WeightsSpec FloatSpec.
From Verif.Proofs Require Import FloatProofs.
Import ListNotations.
Open Scope R_scope.

Lemma Rsum_app a b : Rsum (a ++ b) = Rsum a + Rsum b.
Proof. unfold Rsum. induction a as [|x a IH]; simpl; [lra|]. rewrite IH. lra. Qed.
Lemma Rsum_perm a b : Permutation a b -> Rsum a = Rsum b.
Proof. unfold Rsum. induction 1; simpl; lra. Qed.
Lemma Rsum_nonneg l : (forall x, In x l -> 0 <= x) -> 0 <= Rsum l.
Proof.
  unfold Rsum. induction l as [|a l IH]; intros H; simpl; [lra|]. pose proof (H a (or_introl eq_refl)).
  specialize (IH ltac:(intros; apply H; now right)). lra.
Qed.

Section Powers.
  Variable e : R.
  Hypothesis He : 0 <= e <= / 2.
  Lemma pow_up_ge m : 1 <= (1 + e) ^ m. Proof. apply pow_R1_Rle. lra. Qed.
  Lemma pow_up_mono m k : (m <= k)%nat -> (1 + e) ^ m <= (1 + e) ^ k. Proof. apply Rle_pow. lra. Qed.
  Lemma pow_dn m : 0 < (1 - e) ^ m <= 1.
  Proof. split; [apply pow_lt; lra|]. apply Rle_trans with (1 ^ m); [apply pow_incr; lra|rewrite pow1; lra]. Qed.
  Lemma pow_dn_mono m k : (m <= k)%nat -> (1 - e) ^ k <= (1 - e) ^ m.
  Proof.
    intros H. replace k with (m + (k - m))%nat by lia. rewrite pow_add. pose proof (pow_dn m). pose proof (pow_dn (k - m)).
    rewrite <- (Rmult_1_r ((1 - e) ^ m)) at 2. apply Rmult_le_compat_l; lra.
  Qed.
  (** Bernoulli and its converse for small exponents. *)
  Lemma pow_dn_lower m : 1 - INR m * e <= (1 - e) ^ m.
  Proof.
    induction m as [|m IH]; [simpl; lra|]. rewrite S_INR. simpl. pose proof (pos_INR m). pose proof (pow_dn m).
    apply Rle_trans with ((1 - e) ^ m - e); [lra|]. assert ((1 - e) ^ m * e <= 1 * e) by (apply Rmult_le_compat_r; lra). lra.
  Qed.
  Lemma pow_up_upper m : INR m * e <= / 4 -> (1 + e) ^ m <= 1 + 2 * INR m * e.
  Proof.
    induction m as [|m IH]; intros H; [simpl; lra|]. rewrite S_INR in *. simpl. pose proof (pos_INR m) as Pm.
    specialize (IH ltac:(lra)). pose proof (pow_up_ge m).
    apply Rle_trans with ((1 + e) * (1 + 2 * INR m * e)); [apply Rmult_le_compat_l; lra|].
    assert (INR m * e * e <= / 4 * e) by (apply Rmult_le_compat_r; lra). lra.
  Qed.
End Powers.

Section Sums.
  Context {prec emax : Z} {Hp : Prec_gt_0 prec} {He : Prec_lt_emax prec emax}.
  Notation float := (binary_float prec emax).
  Notation rnd := (@FloatProofs.rnd prec emax).
  Notation fmt := (@FloatProofs.fmt prec emax).
  Notation eps := (@FloatProofs.eps prec).

  Lemma eps_range : 0 <= eps <= / 2.
  Proof. pose proof (eps_pos (prec := prec)). pose proof (eps_le_half (prec := prec)). lra. Qed.

  Definition unit_interval (x : float) : Prop := is_finite x = true /\ 0 <= B2R x <= 1.

  (** A rounded sum of numbers between 0 and 1. *)
  Lemma added_up_bounds l s : added_up l s -> (forall x, In x l -> unit_interval x) -> INR (length l) <= bpow radix2 prec ->
    is_finite s = true /\ 0 <= B2R s <= INR (length l) /\ (forall x, In x l -> B2R x <= B2R s) /\
    (1 - eps) ^ length l * Rsum (map B2R l) <= B2R s <= (1 + eps) ^ length l * Rsum (map B2R l).
  Proof.
    pose proof eps_range as Pe.
    induction 1 as [|x|l r a b Ha IHa Hb IHb|l l' a Hperm Ha IHa]; intros Hl Hlen.
    - simpl. split; [reflexivity|]. split; [lra|]. split; [intros x []|]. unfold Rsum; simpl. lra.
    - destruct (Hl x (or_introl eq_refl)) as (F & B). simpl. unfold Rsum; simpl. split; [exact F|]. split; [lra|].
      split; [intros y [<-|[]]; lra|]. rewrite !Rmult_1_r, !Rplus_0_r. split.
      + rewrite <- (Rmult_1_l (B2R x)) at 2. apply Rmult_le_compat_r; lra.
      + rewrite <- (Rmult_1_l (B2R x)) at 1. apply Rmult_le_compat_r; lra.
    - rewrite app_length, plus_INR in Hlen. pose proof (pos_INR (length l)) as P1. pose proof (pos_INR (length r)) as P2.
      destruct (IHa ltac:(intros; apply Hl, in_or_app; now left) ltac:(lra)) as (Fa & Ra & Ma & La & Ua).
      destruct (IHb ltac:(intros; apply Hl, in_or_app; now right) ltac:(lra)) as (Fb & Rb & Mb & Lb & Ub).
      pose proof (bpow_le radix2 prec (emax - 1) ltac:(pose proof (prec_emax (prec := prec) (emax := emax)); lia)) as Ht.
      destruct (fadd_ok a b Fa Fb) as (Fs & Es); [rewrite Rabs_pos_eq; lra|]. unfold fadd in *.
      rewrite Es, app_length, map_app, Rsum_app, plus_INR.
      split; [exact Fs|]. split; [|split].
      + split; [apply rnd_nonneg; lra|]. apply rnd_le_fmt; [|lra]. rewrite <- plus_INR. apply fmt_nat. rewrite plus_INR. lra.
      + intros x Hx. apply in_app_or in Hx. destruct Hx as [Hx|Hx].
        * specialize (Ma x Hx). apply rnd_ge_fmt; [apply fmt_B2R|lra].
        * specialize (Mb x Hx). apply rnd_ge_fmt; [apply fmt_B2R|lra].
      + destruct l as [|x0 l0].
        { simpl in *. unfold Rsum in La, Ua; simpl in La, Ua. assert (Ea : B2R a = 0) by lra. rewrite Ea, !Rplus_0_l.
          rewrite rnd_id by apply fmt_B2R. split; assumption. }
        destruct r as [|y0 r0].
        { simpl in *. unfold Rsum in Lb, Ub; simpl in Lb, Ub. assert (Eb : B2R b = 0) by lra. rewrite Eb, !Rplus_0_r.
          rewrite rnd_id by apply fmt_B2R. rewrite Nat.add_0_r. split; assumption. }
        set (L := x0 :: l0) in *. set (Rr := y0 :: r0) in *.
        assert (HL : (1 <= length L)%nat) by (unfold L; simpl; lia). assert (HR : (1 <= length Rr)%nat) by (unfold Rr; simpl; lia).
        pose proof (rnd_plus (emax := emax) (B2R a) (B2R b) (fmt_B2R a) (fmt_B2R b)) as Hr. rewrite Rabs_pos_eq with (x := B2R a + B2R b) in Hr by lra.
        apply Rabs_le_between in Hr.
        assert (S1 : 0 <= Rsum (map B2R L)).
        { apply Rsum_nonneg. intros x Hx. apply in_map_iff in Hx. destruct Hx as (y & <- & Hy).
          apply Hl, in_or_app. now left. }
        assert (S2 : 0 <= Rsum (map B2R Rr)).
        { apply Rsum_nonneg. intros x Hx. apply in_map_iff in Hx. destruct Hx as (y & <- & Hy).
          apply Hl, in_or_app. now right. }
        set (p := length L) in *. set (q := length Rr) in *. set (A := Rsum (map B2R L)) in *. set (B := Rsum (map B2R Rr)) in *.
        set (mx := (p + q - 1)%nat). replace (p + q)%nat with (S mx) by (unfold mx; lia). simpl pow.
        assert (D1 : (1 - eps) ^ mx * A <= B2R a).
        { eapply Rle_trans; [|exact La]. apply Rmult_le_compat_r; [exact S1|]. apply pow_dn_mono; [exact Pe|unfold mx; lia]. }
        assert (D2 : (1 - eps) ^ mx * B <= B2R b).
        { eapply Rle_trans; [|exact Lb]. apply Rmult_le_compat_r; [exact S2|]. apply pow_dn_mono; [exact Pe|unfold mx; lia]. }
        assert (U1 : B2R a <= (1 + eps) ^ mx * A).
        { eapply Rle_trans; [exact Ua|]. apply Rmult_le_compat_r; [exact S1|]. apply pow_up_mono; [exact Pe|unfold mx; lia]. }
        assert (U2 : B2R b <= (1 + eps) ^ mx * B).
        { eapply Rle_trans; [exact Ub|]. apply Rmult_le_compat_r; [exact S2|]. apply pow_up_mono; [exact Pe|unfold mx; lia]. }
        split.
        * apply Rle_trans with ((1 - eps) * (B2R a + B2R b)); [|lra]. rewrite Rmult_assoc. apply Rmult_le_compat_l; lra.
        * apply Rle_trans with ((1 + eps) * (B2R a + B2R b)); [lra|]. rewrite Rmult_assoc. apply Rmult_le_compat_l; lra.
    - assert (EL : length l' = length l) by (symmetry; now apply Permutation_length). rewrite EL in *.
      destruct (IHa ltac:(intros x Hx; apply Hl; eapply Permutation_in; eassumption) Hlen) as (Fa & Ra & Ma & Ba).
      split; [exact Fa|]. split; [exact Ra|]. split.
      + intros x Hx. apply Ma. eapply Permutation_in; [apply Permutation_sym; eassumption|exact Hx].
      + rewrite <- (Rsum_perm (map B2R l) (map B2R l')) by now apply Permutation_map. exact Ba.
  Qed.

  (** The same with a linear bound. *)
  Lemma added_up_error l s : added_up l s -> (forall x, In x l -> unit_interval x) -> INR (length l) <= bpow radix2 prec ->
    INR (length l) * eps <= / 8 ->
    Rabs (B2R s - Rsum (map B2R l)) <= 2 * INR (length l) * eps * Rsum (map B2R l).
  Proof.
    intros Hs Hl Hlen Hsm. destruct (added_up_bounds l s Hs Hl Hlen) as (_ & _ & _ & L & U).
    pose proof eps_range as Pe.
    assert (S0 : 0 <= Rsum (map B2R l)).
    { apply Rsum_nonneg. intros x Hx. apply in_map_iff in Hx. destruct Hx as (y & <- & Hy). now apply Hl. }
    pose proof (pow_dn_lower eps Pe (length l)) as B1. pose proof (pow_up_upper eps Pe (length l) ltac:(lra)) as B2.
    pose proof (pos_INR (length l)) as P0. assert (0 <= INR (length l) * eps) by (apply Rmult_le_pos; lra).
    set (S := Rsum (map B2R l)) in *. set (n := INR (length l)) in *.
    assert ((1 - n * eps) * S <= (1 - eps) ^ length l * S) by (apply Rmult_le_compat_r; lra).
    assert ((1 + eps) ^ length l * S <= (1 + 2 * n * eps) * S) by (apply Rmult_le_compat_r; lra).
    assert (0 <= n * eps * S) by (apply Rmult_le_pos; lra).
    apply Rabs_le. lra.
  Qed.
End Sums.

Section Normalize.
  Context {prec emax : Z} {Hp : Prec_gt_0 prec} {He : Prec_lt_emax prec emax}.
  Notation float := (binary_float prec emax).
  Notation rnd := (@FloatProofs.rnd prec emax).
  Notation fmt := (@FloatProofs.fmt prec emax).
  Notation eps := (@FloatProofs.eps prec).
  Notation ninf := (B754_infinity true : float).

  (** Finite or -inf. *)
  Definition low (x : float) : Prop := is_finite x = true \/ x = ninf.

  Lemma nan_to_num_low (x : float) : low (nan_to_num x).
  Proof.
    destruct x as [s|[|]| |s m e H]; cbn [nan_to_num]; try (now right); left; try reflexivity.
  Qed.
  Lemma nan_to_num_level (x : float) :
    match log_weight x with
    | Some r => is_finite (nan_to_num x) = true /\ B2R (nan_to_num x) = r
    | None => nan_to_num x = ninf
    end.
  Proof.
    destruct x as [s|[|]| |s m e H]; cbn [nan_to_num log_weight]; try reflexivity; try (split; reflexivity).
    split; [now rewrite is_finite_Bopp|now rewrite B2R_Bopp].
  Qed.

  Lemma Bltb_lt (x y : float) : is_finite x = true -> is_finite y = true -> (Bltb x y = true <-> B2R x < B2R y).
  Proof.
    intros Fx Fy. rewrite Bltb_correct by assumption. destruct (Rlt_bool_spec (B2R x) (B2R y)); split; intros; try lra; easy.
  Qed.

  Lemma fmax_low (a b : float) : low a -> low b ->
    (fmax a b = a \/ fmax a b = b) /\
    (is_finite a = true \/ is_finite b = true -> is_finite (fmax a b) = true) /\
    (is_finite a = true -> B2R a <= B2R (fmax a b)) /\ (is_finite b = true -> B2R b <= B2R (fmax a b)).
  Proof.
    intros La Lb. assert (E : fmax a b = if Bltb a b then b else a).
    { destruct La as [Fa| ->], Lb as [Fb| ->]; try reflexivity.
      - destruct a; try discriminate Fa; destruct b; try discriminate Fb; reflexivity.
      - destruct a; try discriminate Fa; reflexivity.
      - destruct b; try discriminate Fb; reflexivity. }
    rewrite E. clear E. split; [destruct (Bltb a b); auto|].
    destruct La as [Fa| ->], Lb as [Fb| ->].
    - pose proof (Bltb_lt a b Fa Fb) as T. destruct (Bltb a b).
      + pose proof (proj1 T eq_refl). repeat split; auto; intros; lra.
      + assert (~ B2R a < B2R b) by (intros H; now apply T in H). repeat split; auto; intros; lra.
    - assert (E : Bltb a ninf = false) by (destruct a as [s|[|]| |[|] m e H]; try discriminate Fa; reflexivity).
      rewrite E. repeat split; auto; try discriminate. intros; lra.
    - assert (E : Bltb ninf b = true) by (destruct b as [s|[|]| |[|] m e H]; try discriminate Fb; reflexivity).
      rewrite E. repeat split; auto; try discriminate. intros; lra.
    - simpl. repeat split; try discriminate. intros [|]; discriminate.
  Qed.

  Lemma fold_max_low : forall (l : list float) a, low a -> (forall x, In x l -> low x) ->
    let m := fold_left fmax l a in
    low m /\ (m = a \/ In m l) /\
    ((is_finite a = true \/ exists x, In x l /\ is_finite x = true) -> is_finite m = true) /\
    (is_finite a = true -> B2R a <= B2R m) /\ (forall x, In x l -> is_finite x = true -> B2R x <= B2R m).
  Proof.
    induction l as [|b l IH]; intros a La Hl; simpl.
    - repeat split; auto.
      + intros [H|(x & [] & _)]; exact H.
      + intros; lra.
      + intros x [].
    - destruct (fmax_low a b La (Hl b (or_introl eq_refl))) as (C & F & M1 & M2).
      assert (Lf : low (fmax a b)) by (destruct C as [->| ->]; [exact La|apply Hl; now left]).
      destruct (IH (fmax a b) Lf ltac:(intros; apply Hl; now right)) as (A1 & A2 & A3 & A4 & A5).
      split; [exact A1|]. split; [|split; [|split]].
      + destruct A2 as [E|A2]; [|right; now right]. rewrite E. destruct C as [->| ->]; [now left|right; now left].
      + intros [H|(x & [->|Hx] & Fx)]; apply A3; [left; apply F; now left|left; apply F; now right|right; now exists x].
      + intros Fa. pose proof (M1 Fa). pose proof (A4 (F (or_introl Fa))). lra.
      + intros x [->|Hx] Fx; [|now apply A5]. pose proof (M2 Fx). pose proof (A4 (F (or_intror Fx))). lra.
  Qed.

  Lemma fmaxl_low (l : list float) : (forall x, In x l -> low x) -> (exists x, In x l /\ is_finite x = true) ->
    is_finite (fmaxl l) = true /\ In (fmaxl l) l /\ forall x, In x l -> is_finite x = true -> B2R x <= B2R (fmaxl l).
  Proof.
    intros Hl Hx. destruct l as [|a l]; [destruct Hx as (x & [] & _)|]. cbn [fmaxl].
    destruct (fold_max_low l a (Hl a (or_introl eq_refl)) ltac:(intros; apply Hl; now right)) as (A1 & A2 & A3 & A4 & A5).
    split; [|split].
    - apply A3. destruct Hx as (x & [->|Hx] & Fx); [now left|right; now exists x].
    - destruct A2 as [->|A2]; [now left|now right].
    - intros x [->|Hin] Fx; [now apply A4|now apply A5].
  Qed.

  Lemma zero_float (x : float) : is_finite x = true -> B2R x = 0 -> exists s, x = B754_zero s.
  Proof.
    intros F E. destruct x as [s|s| |s m e H]; try discriminate F; [now exists s|]. simpl in E.
    exfalso. destruct s; simpl in E.
    - pose proof (F2R_lt_0 radix2 (Float radix2 (Z.neg m) e)) as T. simpl in T. specialize (T ltac:(reflexivity)). change (Z.neg m) with (- Z.pos m)%Z in T. simpl in T. lra.
    - pose proof (F2R_gt_0 radix2 (Float radix2 (Z.pos m) e) ltac:(reflexivity)). lra.
  Qed.

  Hypothesis Hwide : (prec + 3 <= emax)%Z.

  (** Subtracting the largest entry. *)
  Lemma shift_ok (x m : float) : is_finite x = true -> is_finite m = true -> B2R x <= B2R m ->
    (is_finite (fsub x m) = true /\ B2R (fsub x m) = rnd (B2R x - B2R m)) \/
    (fsub x m = ninf /\ B2R x - B2R m <= - bpow radix2 (emax - 1)).
  Proof.
    intros Fx Fm Hle. pose proof (Bminus_correct prec emax Hp He mode_NE x m Fx Fm) as C.
    change (round_mode mode_NE) with ZnearestE in C. fold (rnd (B2R x - B2R m)) in C.
    destruct (Rle_or_lt (- bpow radix2 (emax - 1)) (B2R x - B2R m)) as [H|H].
    - left. apply fsub_ok; try assumption. rewrite Rabs_left1 by lra. lra.
    - destruct (Rlt_bool (Rabs (rnd (B2R x - B2R m))) (bpow radix2 emax)).
      + destruct C as (C1 & C2 & _). left. split; assumption.
      + right. split; [|lra]. destruct C as (C1 & C2).
        assert (Sx : Bsign x = true).
        { destruct (Bsign x) eqn:E; [reflexivity|exfalso]. symmetry in C2. apply negb_false_iff in C2.
          pose proof (bpow_gt_0 radix2 (emax - 1)).
          assert (P1 : 0 <= B2R x).
          { destruct x as [s|s| |s mm e Hb]; try discriminate Fx; simpl in *; [lra|]. subst s. apply F2R_ge_0. simpl. lia. }
          assert (P2 : B2R m <= 0).
          { destruct m as [s|s| |s mm e Hb]; try discriminate Fm; simpl in *; [lra|]. subst s. apply F2R_le_0. simpl. lia. }
          lra. }
        rewrite Sx in C1. unfold fsub. simpl in C1. destruct (Bminus mode_NE x m); try discriminate C1.
        simpl in C1. injection C1 as ->. reflexivity.
  Qed.

  Lemma shift_inf (m : float) : is_finite m = true -> fsub ninf m = ninf.
  Proof. intros F. destruct m; try discriminate F; reflexivity. Qed.

  Lemma exp_neg_small t : 0 < t -> exp (- t) <= / t.
  Proof.
    intros Ht. rewrite exp_Ropp. apply Rinv_le; [exact Ht|]. pose proof (exp_ineq1 t ltac:(lra)). lra.
  Qed.

  Lemma t_exp t : 0 <= t -> t * exp (- t) <= / 2.
  Proof.
    intros Ht. rewrite exp_Ropp. apply Rmult_le_reg_r with (exp t); [apply exp_pos|].
    rewrite Rmult_assoc, Rinv_l, Rmult_1_r by (apply Rgt_not_eq, exp_pos).
    assert (H : 2 * t <= exp t); [|lra].
    (* exp t = (exp (t/2))^2 >= (1 + t/2)^2 >= 2 t *)
    replace (exp t) with (exp (t / 2) * exp (t / 2)) by (rewrite <- exp_plus; f_equal; field).
    assert (H1 : 1 + t / 2 <= exp (t / 2)).
    { destruct (Req_dec t 0) as [->|Hn]; [replace (0 / 2) with 0 by field; rewrite exp_0; lra|].
      left. apply exp_ineq1. lra. }
    apply Rle_trans with ((1 + t / 2) * (1 + t / 2)); [|apply Rmult_le_compat; lra].
    assert (0 <= (1 - t / 2) * (1 - t / 2)) by apply Rle_0_sqr. lra.
  Qed.

  (** A relative error of the argument below zero is an absolute error of the exponential. *)
  Lemma exp_perturb z y : z <= 0 -> Rabs (y - z) <= eps * Rabs z -> Rabs (exp y - exp z) <= eps.
  Proof.
    intros Hz Hy. pose proof (eps_range (prec := prec)) as Pe. rewrite (Rabs_left1 z Hz) in Hy. apply Rabs_le_between in Hy.
    assert (Hm : forall a b, a <= b -> exp b - exp a <= (b - a) * exp b).
    { intros a b Hab. assert (1 + (a - b) <= exp (a - b)).
      { destruct (Req_dec (a - b) 0) as [->|Hn]; [rewrite exp_0; lra|]. left. now apply exp_ineq1. }
      assert (exp a = exp b * exp (a - b)) by (rewrite <- exp_plus; f_equal; ring). rewrite H0.
      pose proof (exp_pos b). assert (exp b * (1 + (a - b)) <= exp b * exp (a - b)) by (apply Rmult_le_compat_l; lra). lra. }
    assert (Hbig : - z * exp (z / 2) <= 1).
    { pose proof (t_exp (- z / 2) ltac:(lra)) as T. replace (- (- z / 2)) with (z / 2) in T by field. lra. }
    assert (Hyh : y <= z / 2).
    { assert (eps * - z <= / 2 * - z) by (apply Rmult_le_compat_r; lra). lra. }
    assert (Ey : exp y <= exp (z / 2)) by (destruct Hyh as [Hyh| ->]; [left; now apply exp_increasing|lra]).
    assert (Ez : exp z <= exp (z / 2)).
    { destruct (Req_dec z 0) as [->|]; [replace (0 / 2) with 0 by field; lra|]. left. apply exp_increasing. lra. }
    pose proof (exp_pos y). pose proof (exp_pos z). pose proof (exp_pos (z / 2)).
    apply Rabs_le. split.
    - destruct (Rle_or_lt y z) as [H3|H3].
      + specialize (Hm y z H3). assert ((z - y) * exp z <= eps * - z * exp (z / 2)) by (apply Rmult_le_compat; lra).
        assert (eps * (- z * exp (z / 2)) <= eps * 1) by (apply Rmult_le_compat_l; lra). lra.
      + assert (exp z < exp y) by now apply exp_increasing. lra.
    - destruct (Rle_or_lt y z) as [H3|H3].
      + assert (exp y <= exp z) by (destruct H3 as [H3| ->]; [left; now apply exp_increasing|lra]). lra.
      + specialize (Hm z y ltac:(lra)). assert ((y - z) * exp y <= eps * - z * exp (z / 2)) by (apply Rmult_le_compat; lra).
        assert (eps * (- z * exp (z / 2)) <= eps * 1) by (apply Rmult_le_compat_l; lra). lra.
  Qed.
End Normalize.

Lemma normalize_ne {prec emax : Z} {Hp : Prec_gt_0 prec} {He : Prec_lt_emax prec emax} fexp fsum (l : list (binary_float prec emax)) :
  l <> [] -> normalize fexp fsum l =
    let w := map nan_to_num l in
    let m := fmaxl w in
    let normalized := softmax fexp fsum (map (fun x => fsub x m) w) in
    Ok (if Beqb (fsum normalized) (B754_zero false)
        then map (fun _ => fdiv Bone (of_nat (length normalized))) normalized
        else normalized).
Proof. intros H. destruct l; [congruence|reflexivity]. Qed.

Section Main.
  Context {prec emax : Z} {Hp : Prec_gt_0 prec} {He : Prec_lt_emax prec emax}.
  Notation float := (binary_float prec emax).
  Notation rnd := (@FloatProofs.rnd prec emax).
  Notation eps := (@FloatProofs.eps prec).
  Notation ninf := (B754_infinity true : float).
  Hypothesis Hwide : (prec + 3 <= emax)%Z.
  Variable fexp : float -> float.
  Variable fsum : list float -> float.
  Variable alpha : R.
  Hypothesis Hexp : exponential alpha fexp.
  Hypothesis Hsum : adds_up fsum.
  Variable weights : list float.
  Hypothesis usable : exists x, In x weights /\ log_weight x <> None.
  Hypothesis Hn : INR (length weights) <= bpow radix2 prec.
  Hypothesis Hsmall : INR (length weights) * eps <= / 8.

  Let n : R := INR (length weights).
  Definition wmax : float := fmaxl (map nan_to_num weights).
  Definition shifted (x : float) : float := fsub (nan_to_num x) wmax.
  Definition wmax2 : float := fmaxl (map (fun x => fsub x wmax) (map nan_to_num weights)).
  Definition expo (x : float) : float := fexp (fsub (shifted x) wmax2).
  Definition total : float := fsum (map expo weights).
  Definition prob (x : float) : float := fdiv (expo x) total.
  Definition dev (x : float) : R := match log_weight x with Some r => exp (r - B2R wmax) | None => 0 end.

  Lemma n_ge_1 : 1 <= n.
  Proof.
    destruct usable as (x & Hx & _). unfold n. destruct weights as [|a l]; [destruct Hx|]. simpl length.
    rewrite S_INR. pose proof (pos_INR (length l)). lra.
  Qed.

  Lemma wmax_ok : is_finite wmax = true /\ (exists x, In x weights /\ nan_to_num x = wmax) /\
    forall x, In x weights -> is_finite (nan_to_num x) = true -> B2R (nan_to_num x) <= B2R wmax.
  Proof.
    destruct (fmaxl_low (map nan_to_num weights)) as (F & I & M).
    - intros x Hx. apply in_map_iff in Hx. destruct Hx as (y & <- & _). apply nan_to_num_low.
    - destruct usable as (x & Hx & Hu). exists (nan_to_num x). split; [now apply in_map|].
      pose proof (nan_to_num_level x) as L. destruct (log_weight x); [apply L|congruence].
    - split; [exact F|]. split.
      + apply in_map_iff in I. destruct I as (x & E & Hx). now exists x.
      + intros x Hx Fx. apply M; [now apply in_map|exact Fx].
  Qed.

  Lemma top_eps : / bpow radix2 (emax - 1) <= eps.
  Proof. rewrite <- bpow_opp. apply bpow_le. lia. Qed.

  Lemma shifted_ok x : In x weights ->
    (is_finite (shifted x) = true /\ B2R (shifted x) <= 0 /\ Rabs (exp (B2R (shifted x)) - dev x) <= eps) \/
    (shifted x = ninf /\ 0 <= dev x <= eps).
  Proof.
    intros Hx. destruct wmax_ok as (FM & _ & HM). unfold shifted, dev. pose proof (nan_to_num_level x) as L.
    pose proof (eps_range (prec := prec)) as Pe.
    destruct (log_weight x) as [r|].
    - destruct L as (F & E). specialize (HM x Hx F). rewrite <- E.
      destruct (shift_ok _ _ F FM HM) as [(Fs & Es)|(Es & Hb)].
      + left. split; [exact Fs|]. rewrite Es. split; [apply rnd_le_fmt; [apply fmt_0|lra]|].
        apply exp_perturb; [lra|]. pose proof (rnd_plus (emax := emax) (B2R (nan_to_num x)) (- B2R wmax) (fmt_B2R _)) as T.
        apply T. rewrite <- B2R_Bopp. apply fmt_B2R.
      + right. split; [exact Es|]. split; [left; apply exp_pos|].
        pose proof (bpow_gt_0 radix2 (emax - 1)). pose proof top_eps.
        apply Rle_trans with (exp (- bpow radix2 (emax - 1))).
        * destruct Hb as [Hb| ->]; [left; now apply exp_increasing|lra].
        * eapply Rle_trans; [now apply exp_neg_small|assumption].
    - right. split; [|lra]. rewrite L. now apply shift_inf.
  Qed.

  Lemma top_shift : exists x, In x weights /\ (exists s, shifted x = B754_zero s) /\ dev x = 1.
  Proof.
    destruct wmax_ok as (FM & (x & Hx & Ex) & HM). exists x. split; [exact Hx|].
    unfold shifted, dev. rewrite Ex. pose proof (nan_to_num_level x) as L. split.
    - apply zero_float.
      + apply fsub_ok; try assumption. unfold Rminus. rewrite Rplus_opp_r, Rabs_R0. apply bpow_ge_0.
      + rewrite (proj2 (fsub_ok wmax wmax FM FM ltac:(unfold Rminus; rewrite Rplus_opp_r, Rabs_R0; apply bpow_ge_0))).
        unfold Rminus. rewrite Rplus_opp_r. apply rnd_0.
    - destruct (log_weight x) as [r|].
      + destruct L as (F & E). rewrite Ex in E. rewrite <- E. unfold Rminus. rewrite Rplus_opp_r. apply exp_0.
      + rewrite Ex in L. rewrite L in FM. discriminate FM.
  Qed.

  Lemma shifted_low x : In x weights -> low (shifted x).
  Proof. intros Hx. destruct (shifted_ok x Hx) as [(F & _)|(E & _)]; [now left|now right]. Qed.

  Lemma wmax2_zero : exists s, wmax2 = B754_zero s.
  Proof.
    unfold wmax2. rewrite map_map. destruct top_shift as (x & Hx & (s & Es) & _).
    destruct (fmaxl_low (map (fun x => fsub (nan_to_num x) wmax) weights)) as (F & I & M).
    - intros y Hy. apply in_map_iff in Hy. destruct Hy as (z & <- & Hz). now apply shifted_low.
    - exists (shifted x). split; [now apply (in_map shifted)|]. now rewrite Es.
    - apply zero_float; [exact F|]. apply Rle_antisym.
      + apply in_map_iff in I. destruct I as (y & Ey & Hy). destruct (shifted_ok y Hy) as [(_ & L & _)|(E & _)].
        * unfold shifted in L. now rewrite Ey in L.
        * unfold shifted in E. rewrite Ey in E. rewrite E in F. discriminate F.
      + specialize (M (shifted x) ltac:(now apply (in_map shifted)) ltac:(now rewrite Es)). rewrite Es in M at 1. exact M.
  Qed.

  Lemma minus_zero (x : float) s : low x -> is_finite x = true ->
    is_finite (fsub x (B754_zero s)) = true /\ B2R (fsub x (B754_zero s)) = B2R x.
  Proof.
    intros _ F. pose proof (Bminus_correct prec emax Hp He mode_NE x (B754_zero s) F eq_refl) as C.
    change (B2R (B754_zero s : float)) with 0 in C. rewrite Rminus_0_r in C.
    change (round radix2 (SpecFloat.fexp prec emax) (round_mode mode_NE) (B2R x)) with (rnd (B2R x)) in C.
    rewrite rnd_id in C by apply fmt_B2R. rewrite Rlt_bool_true in C by apply abs_B2R_lt_emax.
    destruct C as (C1 & C2 & _). split; assumption.
  Qed.

  Lemma expo_ok x : In x weights -> unit_interval (expo x) /\ Rabs (B2R (expo x) - dev x) <= alpha + eps.
  Proof.
    intros Hx. destruct wmax2_zero as (s & Es). unfold expo. rewrite Es. destruct Hexp as (E0 & E1 & E2 & E3).
    assert (Ha : 0 <= alpha).
    { destruct (E3 (B754_zero false) eq_refl ltac:(simpl; lra)) as (_ & _ & T). eapply Rle_trans; [apply Rabs_pos|exact T]. }
    destruct (shifted_ok x Hx) as [(F & N & D)|(E & D)].
    - destruct (minus_zero (shifted x) s (or_introl F) F) as (F' & E'). rewrite <- E' in N, D.
      destruct (E3 _ F' N) as (A1 & A2 & A3). split; [split; assumption|].
      replace (B2R (fexp (fsub (shifted x) (B754_zero s))) - dev x) with
        ((B2R (fexp (fsub (shifted x) (B754_zero s))) - exp (B2R (fsub (shifted x) (B754_zero s)))) +
         (exp (B2R (fsub (shifted x) (B754_zero s))) - dev x)) by ring.
      eapply Rle_trans; [apply Rabs_triang|]. lra.
    - rewrite E, shift_inf by reflexivity. split; [split; [exact E2|lra]|]. rewrite E1, Rminus_0_l, Rabs_Ropp, Rabs_pos_eq; lra.
  Qed.

  Lemma top_expo : exists x, In x weights /\ expo x = Bone /\ dev x = 1.
  Proof.
    destruct top_shift as (x & Hx & (s & Es) & Ed). exists x. split; [exact Hx|]. split; [|exact Ed].
    destruct wmax2_zero as (s2 & Es2). unfold expo. rewrite Es, Es2. destruct Hexp as (E0 & _).
    destruct s, s2; apply E0.
  Qed.

  Let E : R := Rsum (map B2R (map expo weights)).
  Let D : R := Rsum (map dev weights).

  Lemma Rsum_in l x : In x l -> (forall y, In y l -> 0 <= y) -> x <= Rsum l.
  Proof.
    unfold Rsum. induction l as [|a l IH]; intros Hx Hl; [destruct Hx|]. simpl. destruct Hx as [->|Hx].
    - pose proof (Rsum_nonneg l ltac:(intros; apply Hl; now right)) as P. unfold Rsum in P. lra.
    - pose proof (Hl a (or_introl eq_refl)). specialize (IH Hx ltac:(intros; apply Hl; now right)). lra.
  Qed.
  Lemma Rsum_diff {A} (f g : A -> R) c l : (forall x, In x l -> Rabs (f x - g x) <= c) ->
    Rabs (Rsum (map f l) - Rsum (map g l)) <= INR (length l) * c.
  Proof.
    unfold Rsum. induction l as [|a l IH]; intros H; simpl length; simpl map; simpl fold_right.
    - simpl. rewrite Rminus_0_r, Rabs_R0. lra.
    - rewrite S_INR. pose proof (H a (or_introl eq_refl)). specialize (IH ltac:(intros; apply H; now right)).
      replace (f a + fold_right Rplus 0 (map f l) - (g a + fold_right Rplus 0 (map g l))) with
        ((f a - g a) + (fold_right Rplus 0 (map f l) - fold_right Rplus 0 (map g l))) by ring.
      eapply Rle_trans; [apply Rabs_triang|]. lra.
  Qed.

  Lemma expo_all x : In x (map expo weights) -> unit_interval x.
  Proof. intros H. apply in_map_iff in H. destruct H as (y & <- & Hy). now apply expo_ok. Qed.

  Lemma total_ok : is_finite total = true /\ 1 <= B2R total <= n /\ Rabs (B2R total - E) <= 2 * n * eps * E /\
    (forall x, In x weights -> B2R (expo x) <= B2R total).
  Proof.
    destruct (added_up_bounds (map expo weights) total (Hsum _) expo_all ltac:(rewrite map_length; exact Hn)) as (F & R & M & _).
    pose proof (added_up_error (map expo weights) total (Hsum _) expo_all ltac:(rewrite map_length; exact Hn) ltac:(rewrite map_length; exact Hsmall)) as Er.
    rewrite map_length in R, Er. split; [exact F|]. split; [|split; [exact Er|]].
    - split; [|apply R]. destruct top_expo as (x & Hx & Ex & _). specialize (M (expo x) (in_map expo _ _ Hx)).
      rewrite Ex, Bone_R in M. exact M.
    - intros x Hx. apply M. now apply in_map.
  Qed.

  Lemma prob_ok x : In x weights ->
    unit_interval (prob x) /\ B2R (prob x) = rnd (B2R (expo x) / B2R total) /\
    Rabs (B2R (prob x) - B2R (expo x) / B2R total) <= eps.
  Proof.
    intros Hx. destruct total_ok as (FT & RT & _ & MT). destruct (expo_ok x Hx) as ((Fe & Re) & _). specialize (MT x Hx).
    assert (Q : 0 <= B2R (expo x) / B2R total <= 1).
    { split; [apply Rdiv_le_0_compat; lra|]. apply Rle_div_l; lra. }
    destruct (fdiv_ok (expo x) total Fe ltac:(lra)) as (F & Ed).
    { rewrite Rabs_pos_eq by lra. apply Rle_trans with 1; [lra|]. change 1 with (bpow radix2 0). apply bpow_le.
      pose proof (prec_pos (prec := prec)). lia. }
    unfold prob. rewrite Ed. split; [|split; [reflexivity|]].
    - split; [exact F|]. rewrite Ed. split; [apply rnd_nonneg; lra|]. apply rnd_le_fmt; [apply fmt_1|lra].
    - apply rnd_error_1. rewrite Rabs_pos_eq; lra.
  Qed.

  Lemma top_prob : exists x, In x weights /\ eps <= B2R (prob x).
  Proof.
    destruct top_expo as (x & Hx & Ex & _). exists x. split; [exact Hx|]. destruct (prob_ok x Hx) as (_ & Ep & _).
    rewrite Ep, Ex, Bone_R. destruct total_ok as (FT & RT & _ & MT).
    apply rnd_ge_fmt.
    - apply fmt_bpow. pose proof (prec_pos (prec := prec)). unfold SpecFloat.emin. lia.
    - unfold FloatProofs.eps. rewrite bpow_opp. unfold Rdiv. rewrite Rmult_1_l. apply Rinv_le; [lra|]. unfold n in RT. lra.
  Qed.

  Lemma normalize_ok : normalize fexp fsum weights = Ok (map prob weights).
  Proof.
    rewrite normalize_ne; [|destruct usable as (x & Hx & _); intros ->; destruct Hx]. cbv zeta. fold wmax.
    assert (Es : softmax fexp fsum (map (fun x => fsub x wmax) (map nan_to_num weights)) = map prob weights).
    { unfold softmax. fold wmax2. cbv zeta. rewrite !map_map. reflexivity. }
    rewrite Es.
    destruct (added_up_bounds (map prob weights) (fsum (map prob weights)) (Hsum _)) as (F & R & M & _).
    - intros x Hx. apply in_map_iff in Hx. destruct Hx as (y & <- & Hy). now apply prob_ok.
    - rewrite map_length. exact Hn.
    - destruct top_prob as (x & Hx & Tx). specialize (M (prob x) (in_map prob _ _ Hx)).
      rewrite Beqb_correct by (try exact F; reflexivity). rewrite Req_bool_false; [reflexivity|].
      change (B2R (B754_zero false : float)) with 0. pose proof (eps_pos (prec := prec)). lra.
  Qed.

  Lemma E_total : E / B2R total <= 1 + 8 / 3 * n * eps /\ 1 - 2 * n * eps <= E / B2R total.
  Proof.
    destruct total_ok as (FT & RT & ET & MT). pose proof (eps_range (prec := prec)) as Pe. pose proof n_ge_1 as P1.
    fold n in Hsmall. assert (PE : 0 <= E).
    { apply Rsum_nonneg. intros x Hx. apply in_map_iff in Hx. destruct Hx as (y & <- & Hy). now apply expo_all. }
    apply Rabs_le_between in ET. set (t := n * eps) in *. assert (0 <= t) by (apply Rmult_le_pos; lra).
    replace (2 * n * eps) with (2 * t) in * by (unfold t; ring). replace (8 / 3 * n * eps) with (8 / 3 * t) by (unfold t; field).
    split.
    - apply Rle_div_l; [lra|]. assert (H1 : (1 - 2 * t) * E <= B2R total) by lra.
      assert (H2 : (1 + 8 / 3 * t) * ((1 - 2 * t) * E) <= (1 + 8 / 3 * t) * B2R total) by (apply Rmult_le_compat_l; lra).
      assert (H3 : 1 * E <= (1 + 8 / 3 * t) * (1 - 2 * t) * E).
      { apply Rmult_le_compat_r; [exact PE|]. assert (0 <= t * (/ 8 - t)) by (apply Rmult_le_pos; lra). lra. }
      lra.
    - apply Rle_div_r; [lra|].
      assert (H1 : B2R total <= (1 + 2 * t) * E) by lra.
      assert (H2 : (1 - 2 * t) * B2R total <= (1 - 2 * t) * ((1 + 2 * t) * E)) by (apply Rmult_le_compat_l; lra).
      assert (H3 : (1 - 2 * t) * (1 + 2 * t) * E <= 1 * E).
      { apply Rmult_le_compat_r; [exact PE|]. assert (0 <= t * t) by (apply Rmult_le_pos; lra). lra. }
      lra.
  Qed.

  Lemma sum_near_1 : Rabs (Rsum (map B2R (map prob weights)) - 1) <= 4 * n * eps.
  Proof.
    pose proof (Rsum_diff (fun x => B2R (prob x)) (fun x => B2R (expo x) / B2R total) eps weights ltac:(intros; now apply prob_ok)) as H.
    assert (Es : forall l, Rsum (map (fun x => B2R (expo x) / B2R total) l) = Rsum (map B2R (map expo l)) / B2R total).
    { intros l. unfold Rsum, Rdiv. induction l as [|a l IH]; simpl; [lra|]. rewrite IH. ring. }
    rewrite Es in H. fold E in H. rewrite map_map. fold n in H. pose proof (E_total) as (U & L).
    pose proof (eps_range (prec := prec)) as Pe. pose proof n_ge_1 as P1. assert (0 <= n * eps) by (apply Rmult_le_pos; lra).
    apply Rabs_le_between in H. apply Rabs_le. lra.
  Qed.

  Lemma dev_pos x : 0 <= dev x.
  Proof. unfold dev. destruct (log_weight x); [left; apply exp_pos|lra]. Qed.

  Lemma D_ge_1 : 1 <= D.
  Proof.
    destruct top_expo as (x & Hx & _ & Ed). rewrite <- Ed. apply Rsum_in; [now apply in_map|].
    intros y Hy. apply in_map_iff in Hy. destruct Hy as (z & <- & _). apply dev_pos.
  Qed.

  Lemma weight_dev x : weight x = exp (B2R wmax) * dev x.
  Proof.
    unfold weight, dev. destruct (log_weight x); [|ring]. rewrite <- exp_plus. f_equal. ring.
  Qed.
  Lemma weight_ratio x : weight x / Rsum (map weight weights) = dev x / D.
  Proof.
    assert (Es : forall l, Rsum (map weight l) = exp (B2R wmax) * Rsum (map dev l)).
    { intros l. unfold Rsum. induction l as [|a l IH]; simpl; [ring|]. rewrite IH, weight_dev. ring. }
    rewrite Es, weight_dev. fold D. pose proof D_ge_1. field. split; [|apply Rgt_not_eq, exp_pos]. lra.
  Qed.

  Lemma prob_error x : In x weights ->
    Rabs (B2R (prob x) - weight x / Rsum (map weight weights)) <= 2 * n * alpha + 6 * n * eps.
  Proof.
    intros Hx. rewrite weight_ratio. destruct (prob_ok x Hx) as (_ & _ & P1). destruct (expo_ok x Hx) as (_ & P2).
    destruct total_ok as (FT & RT & ET & MT). pose proof D_ge_1 as PD. pose proof (dev_pos x) as Pd.
    pose proof (eps_range (prec := prec)) as Pe. pose proof n_ge_1 as Pn. destruct E_total as (U & _).
    assert (Ha : 0 <= alpha).
    { destruct Hexp as (_ & _ & _ & E3). destruct (E3 (B754_zero false) eq_refl ltac:(simpl; lra)) as (_ & _ & T).
      eapply Rle_trans; [apply Rabs_pos|exact T]. }
    assert (Hd : dev x <= D).
    { apply Rsum_in; [now apply in_map|]. intros y Hy. apply in_map_iff in Hy. destruct Hy as (z & <- & _). apply dev_pos. }
    pose proof (Rsum_diff (fun y => B2R (expo y)) dev (alpha + eps) weights ltac:(intros; now apply expo_ok)) as HED.
    fold n D in HED. rewrite <- (map_map expo B2R) in HED. fold E in HED.
    set (T := B2R total) in *. set (a := alpha + eps) in *. set (e := B2R (expo x)) in *. set (d := dev x) in *.
    set (t := n * eps) in *. assert (0 <= t) by (apply Rmult_le_pos; lra). fold t in Hsmall.
    assert (HTD : Rabs (T - D) <= n * a + 2 * n * eps * E).
    { replace (T - D) with ((T - E) + (E - D)) by ring. eapply Rle_trans; [apply Rabs_triang|]. lra. }
    assert (HET : E <= 4 / 3 * T).
    { apply Rle_div_l in U; [|lra]. assert ((1 + 8 / 3 * n * eps) * T <= 4 / 3 * T); [|lra].
      apply Rmult_le_compat_r; [lra|]. replace (8 / 3 * n * eps) with (8 / 3 * t) by (unfold t; field). unfold n in *. fold t in Hsmall. lra. }
    assert (Hq : Rabs (e / T - d / D) <= a + n * a + 8 / 3 * t).
    { replace (e / T - d / D) with ((e - d) / T + d / D * ((D - T) / T)) by (field; lra).
      eapply Rle_trans; [apply Rabs_triang|]. rewrite Rplus_assoc. apply Rplus_le_compat.
      - unfold Rdiv. rewrite Rabs_mult, (Rabs_pos_eq (/ T)) by (left; apply Rinv_0_lt_compat; lra).
        apply Rle_trans with (a * 1); [|lra]. apply Rmult_le_compat; [apply Rabs_pos|left; apply Rinv_0_lt_compat; lra|exact P2|].
        rewrite <- Rinv_1. apply Rinv_le; lra.
      - rewrite Rabs_mult. assert (Q1 : 0 <= d / D <= 1) by (split; [apply Rdiv_le_0_compat; lra|apply Rle_div_l; lra]).
        rewrite (Rabs_pos_eq (d / D)) by lra. apply Rle_trans with (1 * (n * a + 8 / 3 * t)); [|lra].
        apply Rmult_le_compat; [lra|apply Rabs_pos|lra|]. unfold Rdiv.
        rewrite Rabs_mult, (Rabs_pos_eq (/ T)) by (left; apply Rinv_0_lt_compat; lra). fold (Rabs (D - T) / T).
        apply Rle_div_l; [lra|]. rewrite Rabs_minus_sym. eapply Rle_trans; [exact HTD|].
        assert (0 <= n * a) by (apply Rmult_le_pos; unfold a; lra).
        assert (n * a * 1 <= n * a * T) by (apply Rmult_le_compat_l; lra).
        assert (t * E <= t * (4 / 3 * T)) by (apply Rmult_le_compat_l; lra).
        replace (2 * n * eps * E) with (2 * (t * E)) by (unfold t; ring). lra. }
    replace (B2R (prob x) - d / D) with ((B2R (prob x) - e / T) + (e / T - d / D)) by ring.
    eapply Rle_trans; [apply Rabs_triang|]. apply Rle_trans with (eps + (a + n * a + 8 / 3 * t)); [lra|].
    assert (1 * alpha <= n * alpha) by (apply Rmult_le_compat_r; lra).
    assert (1 * eps <= t) by (apply Rmult_le_compat_r; lra). unfold a.
    replace (n * (alpha + eps)) with (n * alpha + t) by (unfold t; ring). replace (6 * n * eps) with (6 * t) by (unfold t; ring). lra.
  Qed.
End Main.
