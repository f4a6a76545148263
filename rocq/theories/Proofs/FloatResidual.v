(** Residual resampling in floating point arithmetic. *)
From Coq Require Import ZArith Reals List Bool Lia Lra Permutation.
From Flocq Require Import Core.Core IEEE754.BinarySingleNaN.
From Flocq.Prop Require Import Relative.
From Coquelicot Require Import Rcomplements.
From Verif.Model Require Import Base FloatResampling.
From Verif.Spec Require Import WeightsSpec ResamplingSpec FloatSpec.
From Verif.Proofs Require Import FloatProofs FloatNormalize.
From Verif.Proofs Require ResamplingProofs.
Import ListNotations.
Open Scope R_scope.

Section Residual.
  Context {prec emax : Z} {Hp : Prec_gt_0 prec} {He : Prec_lt_emax prec emax}.
  Notation float := (binary_float prec emax).
  Notation rnd := (@FloatProofs.rnd prec emax).
  Notation eps := (@FloatProofs.eps prec).
  Notation emin := (SpecFloat.emin prec emax).
  Notation bpow := (bpow radix2).

  Lemma ffloor_ok (x : float) : is_finite x = true ->
    is_finite (ffloor x) = true /\ B2R (ffloor x) = IZR (Zfloor (B2R x)).
  Proof.
    intros F. destruct (Bnearbyint_correct prec emax He mode_DN x) as (E & Ff & _). unfold ffloor.
    rewrite Ff, E. split; [exact F|]. apply round_FIX_IZR.
  Qed.
  Lemma ffloor_finite (x : float) : is_finite (ffloor x) = is_finite x.
  Proof. apply (Bnearbyint_correct prec emax He mode_DN x). Qed.
  Lemma Btrunc_int (x : float) k : B2R x = IZR k -> Btrunc x = k.
  Proof.
    intros E. apply eq_IZR. rewrite Btrunc_correct, E, round_FIX_IZR, Ztrunc_IZR by exact He. reflexivity.
  Qed.
  Lemma Bltb_zero (x : float) : is_finite x = true -> (negative x = false <-> 0 <= B2R x).
  Proof.
    intros F. unfold negative. rewrite Bltb_correct by (try exact F; reflexivity). change (B2R (B754_zero false : float)) with 0.
    destruct (Rlt_bool_spec (B2R x) 0); split; intros; try lra; easy.
  Qed.
  Lemma existsb_false {A} (f : A -> bool) l : existsb f l = false <-> forall x, In x l -> f x = false.
  Proof.
    induction l as [|a l IH]; simpl; [split; [intros _ x []|reflexivity]|]. rewrite orb_false_iff, IH. split.
    - intros (H1 & H2) x [<-|Hx]; auto.
    - intros H. split; auto.
  Qed.

  Variable fsum : list float -> float.
  Variable draw : list float -> nat -> list nat.
  Variable w : list float.
  Let n : nat := length w.
  Hypothesis Hbig : INR n <= bpow prec.
  Hypothesis Hwide : (prec + 4 <= emax)%Z.

  Lemma nat_float k : (k <= n)%nat -> is_finite (of_nat k : float) = true /\ B2R (of_nat k : float) = INR k.
  Proof.
    intros Hk. apply le_INR in Hk. pose proof (bpow_le radix2 prec (emax - 1) ltac:(lia)).
    destruct (of_nat_ok (prec := prec) (emax := emax) k ltac:(lra)) as (F & E). split; [exact F|]. rewrite E. apply rnd_id, fmt_nat. lra.
  Qed.

  Definition scaled (x : float) : float := fmul (of_nat n) x.
  Definition whole (x : float) : nat := Z.to_nat (Btrunc (ffloor (scaled x))).

  (** What a successful call returns. *)
  Lemma residual_row_ok l : residual_row fsum draw w = Ok l -> (forall p m, p <> [] -> length (draw p m) = m /\ forall i, In i (draw p m) -> (i < length p)%nat) ->
    length l = n /\ (forall i, In i l -> (i < n)%nat) /\
    forall i, (i < n)%nat -> (whole (nth i w B754_nan) <= copies i l)%nat /\ is_finite (scaled (nth i w B754_nan)) = true /\
      0 <= B2R (ffloor (scaled (nth i w B754_nan))).
  Proof.
    unfold residual_row. cbv zeta. fold n. intros H Hdraw.
    set (mw := map (fun x => fmul (of_nat n) x) w) in *. set (fl := map ffloor mw) in *.
    set (rs := map (fun r => fdiv r (fsum fl)) (map (fun mf => fsub (fst mf) (snd mf)) (combine mw fl))) in *.
    destruct (existsb nonfinite fl || existsb negative fl) eqn:E1; [discriminate|]. apply orb_false_iff in E1.
    destruct E1 as (E1 & E1').
    change (@FloatResampling.repeat_interleave) with (@Resampling.repeat_interleave) in H.
    assert (Er : map (fun x => Z.to_nat (Btrunc x)) fl = map whole w).
    { unfold fl, mw. rewrite !map_map. reflexivity. }
    rewrite Er in H. destruct (ResamplingProofs.repeat_interleave_spec (map whole w) 0) as (R1 & R2 & R3).
    set (md := Resampling.repeat_interleave 0 (map whole w)) in *. rewrite map_length in R2. fold n in R2.
    assert (Hfin : forall i, (i < n)%nat -> is_finite (scaled (nth i w B754_nan)) = true /\ 0 <= B2R (ffloor (scaled (nth i w B754_nan)))).
    { intros i Hi. assert (Hin : In (ffloor (scaled (nth i w B754_nan))) fl).
      { unfold fl, mw. apply in_map. apply (in_map scaled). now apply nth_In. }
      assert (F : is_finite (ffloor (scaled (nth i w B754_nan))) = true).
      { pose proof (proj1 (existsb_false nonfinite fl) E1 _ Hin) as T. unfold nonfinite in T. now apply negb_false_iff in T. }
      split; [now rewrite <- ffloor_finite|]. apply Bltb_zero; [exact F|]. now apply (proj1 (existsb_false negative fl) E1'). }
    assert (Hcop : forall i, (i < n)%nat -> copies i md = whole (nth i w B754_nan)).
    { intros i Hi. specialize (R3 i). simpl in R3. rewrite R3. rewrite (nth_indep _ 0%nat (whole B754_nan)) by (rewrite map_length; exact Hi).
      apply map_nth. }
    destruct (length md =? Nat.min (Z.to_nat (Btrunc (fsum fl))) n)%nat eqn:E2; cbn [negb] in H; [|discriminate].
    apply Nat.eqb_eq in E2.
    destruct (Beqb (fsum fl) (of_nat n)) eqn:E3.
    - injection H as <-. split; [|split].
      + assert (Es : B2R (fsum fl) = INR n).
        { destruct (nat_float n (le_n n)) as (Fn & En). rewrite <- En.
          destruct (is_finite (fsum fl)) eqn:Fs.
          - rewrite Beqb_correct in E3 by assumption. destruct (Req_bool_spec (B2R (fsum fl)) (B2R (of_nat n : float))); [assumption|discriminate].
          - exfalso. destruct (fsum fl) as [s|s| |s m e Hb]; try discriminate Fs; destruct (of_nat n : float) as [s'|s'| |s' m' e' Hb'];
              try discriminate Fn; try discriminate E3; destruct s; try destruct s'; discriminate E3. }
        rewrite INR_IZR_INZ in Es. rewrite (Btrunc_int _ _ Es), Nat2Z.id, Nat.min_id in E2. exact E2.
      + intros i Hi. apply R2 in Hi. lia.
      + intros i Hi. destruct (Hfin i Hi). rewrite Hcop by exact Hi. auto.
    - unfold multinomial_checked in H.
      destruct ((n - Z.to_nat (Btrunc (fsum fl)) =? 0)%nat || existsb nonfinite rs || existsb negative rs || Beqb (fsum rs) (B754_zero false)) eqn:E4;
        [discriminate|]. simpl in H. injection H as <-.
      apply orb_false_iff in E4. destruct E4 as (E4 & _). apply orb_false_iff in E4. destruct E4 as (E4 & _). apply orb_false_iff in E4. destruct E4 as (E4 & _).
      apply Nat.eqb_neq in E4. set (al := Z.to_nat (Btrunc (fsum fl))) in *.
      assert (Hrn : rs <> []).
      { intros Z. apply (f_equal (@length _)) in Z. unfold rs, fl, mw in Z. rewrite !map_length, combine_length, !map_length in Z.
        fold n in Z. simpl in Z. lia. }
      destruct (Hdraw rs (n - al)%nat Hrn) as (D1 & D2). split; [|split].
      + rewrite app_length, D1, E2. lia.
      + intros i Hi. apply in_app_or in Hi. destruct Hi as [Hi|Hi]; [apply R2 in Hi; lia|].
        apply D2 in Hi. unfold rs, fl, mw in Hi. rewrite !map_length, combine_length, !map_length in Hi. fold n in Hi. lia.
      + intros i Hi. destruct (Hfin i Hi). rewrite ResamplingProofs.copies_app, Hcop by exact Hi. split; [lia|auto].
  Qed.

  Hypothesis Hw : forall x, In x w -> unit_interval x.
  Hypothesis Hpos : (0 < n)%nat.

  Lemma nn_ge_1 : 1 <= INR n. Proof. apply (le_INR 1) in Hpos. exact Hpos. Qed.

  Lemma scaled_ok x : unit_interval x -> is_finite (scaled x) = true /\ B2R (scaled x) = rnd (INR n * B2R x) /\
    0 <= B2R (scaled x) <= INR n /\ Rabs (B2R (scaled x) - INR n * B2R x) <= 2 * INR n * eps.
  Proof.
    intros (F & R). destruct (nat_float n (le_n n)) as (Fn & En). pose proof nn_ge_1 as N. pose proof (eps_pos (prec := prec)) as Pe.
    pose proof (prec_pos (prec := prec)) as Pp.
    assert (B : 0 <= INR n * B2R x <= INR n).
    { split; [apply Rmult_le_pos; lra|]. rewrite <- (Rmult_1_r (INR n)) at 2. apply Rmult_le_compat_l; lra. }
    pose proof (bpow_le radix2 prec (emax - 1) ltac:(lia)) as T.
    destruct (fmul_ok (of_nat n) x Fn F ltac:(rewrite En, Rabs_pos_eq; lra)) as (Fm & Em). rewrite En in Em.
    unfold scaled. split; [exact Fm|]. split; [exact Em|]. rewrite Em. split.
    - split; [apply rnd_nonneg; lra|]. apply rnd_le_fmt; [now apply fmt_nat|lra].
    - destruct (relative_error_N_FLT'_ex radix2 emin prec Hp (fun x => negb (Z.even x)) (INR n * B2R x)) as (d & h & Hd & Hh & _ & E).
      change (rnd (INR n * B2R x)) with (round radix2 (FLT_exp emin prec) ZnearestE (INR n * B2R x)). rewrite E.
      replace (INR n * B2R x * (1 + d) + h - INR n * B2R x) with (d * (INR n * B2R x) + h) by ring.
      eapply Rle_trans; [apply Rabs_triang|]. rewrite Rabs_mult, (Rabs_pos_eq (INR n * B2R x)) by lra.
      assert (Hd' : Rabs d <= eps).
      { eapply Rle_trans; [exact Hd|]. rewrite u_ro_eps. apply Rle_div_l; [lra|]. assert (0 <= eps * eps) by (apply Rmult_le_pos; lra). lra. }
      assert (Hh' : Rabs h <= eps).
      { eapply Rle_trans; [exact Hh|]. apply Rle_trans with (bpow emin); [pose proof (bpow_ge_0 radix2 emin); lra|].
        apply bpow_le. unfold SpecFloat.emin. lia. }
      assert (Rabs d * (INR n * B2R x) <= eps * INR n) by (apply Rmult_le_compat; try lra; apply Rabs_pos).
      assert (1 * eps <= INR n * eps) by (apply Rmult_le_compat_r; lra). lra.
  Qed.

  Lemma whole_lower x : unit_interval x -> INR n * B2R x - 1 - 2 * INR n * eps < INR (whole x).
  Proof.
    intros Hx. destruct (scaled_ok x Hx) as (F & _ & R & E). destruct (ffloor_ok (scaled x) F) as (_ & Ef).
    unfold whole. rewrite (Btrunc_int _ _ Ef). assert (Z0 : (0 <= Zfloor (B2R (scaled x)))%Z) by (apply Zfloor_lub; simpl; lra).
    rewrite (INR_IZR_INZ (Z.to_nat _)), Z2Nat.id by exact Z0. pose proof (Zfloor_ub (B2R (scaled x))). apply Rabs_le_between in E. lra.
  Qed.

  Hypothesis Hsum : adds_up fsum.

  (** Whole numbers add up exactly. *)
  Lemma whole_sum l (s : float) : added_up l s -> forall f : float -> nat, (forall x, In x l -> is_finite x = true /\ B2R x = INR (f x)) ->
    Rsum (map (fun x => INR (f x)) l) <= bpow prec -> is_finite s = true /\ B2R s = Rsum (map (fun x => INR (f x)) l).
  Proof.
    induction 1 as [|x|l r a b Ha IHa Hb IHb|l l' a Hperm Ha IHa]; intros f Hl Hb'.
    - split; reflexivity.
    - destruct (Hl x (or_introl eq_refl)) as (F & E). split; [exact F|]. unfold Rsum. simpl. lra.
    - rewrite map_app, Rsum_app in *.
      assert (P1 : 0 <= Rsum (map (fun x => INR (f x)) l)).
      { apply Rsum_nonneg. intros y Hy. apply in_map_iff in Hy. destruct Hy as (z & <- & _). apply pos_INR. }
      assert (P2 : 0 <= Rsum (map (fun x => INR (f x)) r)).
      { apply Rsum_nonneg. intros y Hy. apply in_map_iff in Hy. destruct Hy as (z & <- & _). apply pos_INR. }
      destruct (IHa f ltac:(intros; apply Hl, in_or_app; now left) ltac:(lra)) as (Fa & Ea).
      destruct (IHb f ltac:(intros; apply Hl, in_or_app; now right) ltac:(lra)) as (Fb & Eb).
      pose proof (bpow_le radix2 prec (emax - 1) ltac:(lia)) as T.
      destruct (fadd_ok a b Fa Fb) as (Fs & Es); [rewrite Rabs_pos_eq; lra|]. unfold fadd in *.
      split; [exact Fs|]. rewrite Es, Ea, Eb. apply rnd_id.
      assert (Hint : forall k, exists m, Rsum (map (fun x : float => INR (f x)) k) = INR m).
      { induction k as [|c k (m & Em)]; [now exists 0%nat|]. exists (f c + m)%nat. unfold Rsum in *. simpl. rewrite Em, plus_INR. reflexivity. }
      destruct (Hint l) as (m1 & E1), (Hint r) as (m2 & E2). rewrite E1, E2, <- plus_INR in *. now apply fmt_nat.
    - assert (Ep : Rsum (map (fun x => INR (f x)) l) = Rsum (map (fun x => INR (f x)) l')) by (apply Rsum_perm; now apply Permutation_map).
      rewrite <- Ep in *. apply IHa; [|exact Hb']. intros x Hx. apply Hl. eapply Permutation_in; eassumption.
  Qed.

  Hypothesis Hone : Rabs (Rsum (map B2R w) - 1) <= 4 * INR n * eps.
  Hypothesis Hsmall : 16 * (INR n * INR n * eps) <= 1.
  Hypothesis Hheavy : exists x, In x w /\ 1 <= INR n * B2R x.

  Let N : nat := fold_right Nat.add 0%nat (map whole w).
  Let fl : list float := map ffloor (map (fun x => fmul (of_nat n) x) w).
  Let T : R := Rsum (map (fun x => B2R (scaled x)) w).

  Lemma N_sum : Rsum (map (fun x => INR (whole x)) w) = INR N.
  Proof.
    unfold N. generalize w. intros l. unfold Rsum. induction l as [|a l IH]; [reflexivity|]. simpl. rewrite plus_INR, IH. reflexivity.
  Qed.

  Lemma fl_entry x : unit_interval x -> is_finite (ffloor (scaled x)) = true /\ B2R (ffloor (scaled x)) = INR (whole x) /\
    INR (whole x) <= B2R (scaled x) < INR (whole x) + 1.
  Proof.
    intros Hx. destruct (scaled_ok x Hx) as (F & _ & R & E). destruct (ffloor_ok (scaled x) F) as (Ff & Ef).
    assert (Z0 : (0 <= Zfloor (B2R (scaled x)))%Z) by (apply Zfloor_lub; simpl; lra).
    assert (Ew : INR (whole x) = IZR (Zfloor (B2R (scaled x)))).
    { unfold whole. rewrite (Btrunc_int _ _ Ef). rewrite INR_IZR_INZ, Z2Nat.id by exact Z0. reflexivity. }
    split; [exact Ff|]. split; [congruence|]. rewrite Ew. pose proof (Zfloor_lb (B2R (scaled x))). pose proof (Zfloor_ub (B2R (scaled x))). lra.
  Qed.

  Lemma T_near : Rabs (T - INR n) <= 6 / 16.
  Proof.
    pose proof (Rsum_diff (fun x => B2R (scaled x)) (fun x => INR n * B2R x) (2 * INR n * eps) w ltac:(intros x Hx; apply scaled_ok; now apply Hw)) as H.
    fold n T in H.
    assert (E : Rsum (map (fun x => INR n * B2R x) w) = INR n * Rsum (map B2R w)).
    { generalize (INR n). generalize w. intros l c. unfold Rsum. induction l as [|a l IH]; simpl; [lra|]. rewrite IH. lra. }
    rewrite E in H. pose proof nn_ge_1 as N1. pose proof Hone as H1. apply Rabs_le_between in H1. apply Rabs_le_between in H. apply Rabs_le.
    assert (INR n * (- (4 * INR n * eps)) <= INR n * (Rsum (map B2R w) - 1) <= INR n * (4 * INR n * eps)) by (split; apply Rmult_le_compat_l; lra).
    lra.
  Qed.

  Lemma N_le : (N <= n)%nat.
  Proof.
    assert (H : INR N <= T).
    { rewrite <- N_sum. unfold T. assert (H : forall l, (forall x, In x l -> unit_interval x) ->
        Rsum (map (fun x => INR (whole x)) l) <= Rsum (map (fun x => B2R (scaled x)) l)); [|now apply H].
      unfold Rsum. induction l as [|a l IH]; intros Hl; simpl; [lra|]. pose proof (fl_entry a (Hl a (or_introl eq_refl))) as (_ & _ & B).
      specialize (IH ltac:(intros; apply Hl; now right)). lra. }
    pose proof T_near as TN. apply Rabs_le_between in TN. assert (INR N < INR (S n)) by (rewrite S_INR; lra). apply INR_lt in H0. lia.
  Qed.

  Lemma fl_sum : is_finite (fsum fl) = true /\ B2R (fsum fl) = INR N.
  Proof.
    pose proof N_le as HN. apply le_INR in HN.
    assert (E : map (fun y : float => INR (Z.to_nat (Btrunc y))) fl = map (fun x => INR (whole x)) w).
    { unfold fl. rewrite !map_map. reflexivity. }
    destruct (whole_sum fl (fsum fl) (Hsum _) (fun y => Z.to_nat (Btrunc y))) as (F & S).
    - intros y Hy. unfold fl in Hy. rewrite map_map in Hy. apply in_map_iff in Hy. destruct Hy as (x & <- & Hx).
      destruct (fl_entry x (Hw x Hx)) as (Ff & Ef & _). split; [exact Ff|]. exact Ef.
    - rewrite E, N_sum. lra.
    - rewrite E, N_sum in S. split; assumption.
  Qed.

  Lemma N_pos : (1 <= N)%nat.
  Proof.
    destruct Hheavy as (x & Hx & H1). destruct (scaled_ok x (Hw x Hx)) as (F & E & R & _).
    assert (1 <= B2R (scaled x)) by (rewrite E; apply rnd_ge_fmt; [apply fmt_1|exact H1]).
    destruct (fl_entry x (Hw x Hx)) as (_ & _ & B). assert (Hw1 : (1 <= whole x)%nat).
    { destruct (whole x) as [|k] eqn:Ek; [simpl in B; lra|lia]. }
    assert (H0 : forall l, In x l -> (whole x <= fold_right Nat.add 0%nat (map whole l))%nat).
    { induction l as [|a l IH]; intros Hin; [destruct Hin|]. simpl. destruct Hin as [->|Hin]; [lia|]. specialize (IH Hin). lia. }
    specialize (H0 w Hx). unfold N. lia.
  Qed.

  Let rs : list float := map (fun r => fdiv r (fsum fl)) (map (fun mf => fsub (fst mf) (snd mf)) (combine (map (fun x => fmul (of_nat n) x) w) fl)).
  Definition rest (x : float) : float := fdiv (fsub (scaled x) (ffloor (scaled x))) (fsum fl).

  Lemma rs_eq : rs = map rest w.
  Proof.
    unfold rs, rest. assert (E : forall l, combine (map (fun x : float => fmul (of_nat n) x) l) (map ffloor (map (fun x => fmul (of_nat n) x) l)) =
      map (fun x => (scaled x, ffloor (scaled x))) l).
    { induction l as [|a l IH]; [reflexivity|]. simpl. rewrite IH. reflexivity. }
    unfold fl at 2. rewrite E, !map_map. reflexivity.
  Qed.

  Lemma rest_ok x : unit_interval x -> unit_interval (rest x) /\
    (bpow (- prec - 1) <= B2R (scaled x) - INR (whole x) -> 0 < B2R (rest x)).
  Proof.
    intros Hx. destruct (scaled_ok x Hx) as (F & E & R & _). destruct (fl_entry x Hx) as (Ff & Ef & B).
    destruct fl_sum as (Fs & Es). pose proof N_pos as NP. pose proof N_le as NL. apply le_INR in NP, NL. change (INR 1) with 1 in NP.
    pose proof (prec_pos (prec := prec)) as Pp.
    assert (B1 : 1 <= bpow (emax - 1)) by (change 1 with (bpow 0); apply bpow_le; lia).
    destruct (fsub_ok (scaled x) (ffloor (scaled x)) F Ff ltac:(rewrite Ef, Rabs_pos_eq; lra)) as (Fd & Ed). rewrite Ef in Ed.
    assert (D01 : 0 <= B2R (fsub (scaled x) (ffloor (scaled x))) <= 1).
    { rewrite Ed. split; [apply rnd_nonneg; lra|]. apply rnd_le_fmt; [apply fmt_1|lra]. }
    assert (Q01 : 0 <= B2R (fsub (scaled x) (ffloor (scaled x))) / B2R (fsum fl) <= 1).
    { rewrite Es. split; [apply Rdiv_le_0_compat; lra|]. apply Rle_div_l; lra. }
    destruct (fdiv_ok (fsub (scaled x) (ffloor (scaled x))) (fsum fl) Fd ltac:(lra) ltac:(rewrite Rabs_pos_eq; lra)) as (Fq & Eq).
    unfold rest. split.
    - split; [exact Fq|]. rewrite Eq. split; [apply rnd_nonneg; lra|]. apply rnd_le_fmt; [apply fmt_1|lra].
    - intros Hb. rewrite Eq. apply Rlt_le_trans with (bpow (- prec - 1 - prec)); [apply bpow_gt_0|].
      apply rnd_ge_fmt; [apply fmt_bpow; unfold SpecFloat.emin; lia|].
      assert (bpow (- prec - 1) <= B2R (fsub (scaled x) (ffloor (scaled x)))).
      { rewrite Ed. apply rnd_ge_fmt; [apply fmt_bpow; unfold SpecFloat.emin; lia|lra]. }
      rewrite Es. apply Rle_div_r; [lra|]. unfold Zminus at 1. rewrite bpow_plus, Rmult_assoc.
      pose proof (bpow_gt_0 radix2 (- prec - 1)).
      apply Rle_trans with (bpow (- prec - 1) * 1); [|lra]. apply Rmult_le_compat_l; [lra|].
      rewrite bpow_opp. apply Rle_trans with (/ bpow prec * bpow prec); [|rewrite Rinv_l; [lra|apply Rgt_not_eq, bpow_gt_0]].
      apply Rmult_le_compat_l; [left; apply Rinv_0_lt_compat, bpow_gt_0|lra].
  Qed.

  (** A particle with a positive remainder exists unless the whole numbers make up everything. *)
  Lemma rest_pos : (N < n)%nat -> exists x, In x w /\ 0 < B2R (rest x).
  Proof.
    intros HN. pose proof T_near as TN. apply Rabs_le_between in TN. pose proof nn_ge_1 as N1.
    assert (Hex : exists x, In x w /\ / (2 * INR n) <= B2R (scaled x) - INR (whole x)).
    { assert (Hcon : forall l, (forall x, In x l -> B2R (scaled x) - INR (whole x) < / (2 * INR n)) ->
        Rsum (map (fun x => B2R (scaled x)) l) - Rsum (map (fun x => INR (whole x)) l) <= INR (length l) * / (2 * INR n)).
      { unfold Rsum. induction l as [|a l IH]; intros Hl; simpl length; [simpl; lra|]. rewrite S_INR. simpl map. simpl fold_right.
        pose proof (Hl a (or_introl eq_refl)). specialize (IH ltac:(intros; apply Hl; now right)). lra. }
      destruct (Exists_dec (fun x => / (2 * INR n) <= B2R (scaled x) - INR (whole x)) w) as [X|X].
      - intros x. apply Rle_dec.
      - apply Exists_exists in X. exact X.
      - exfalso. specialize (Hcon w). rewrite N_sum in Hcon. fold n T in Hcon.
        assert (T - INR N <= INR n * / (2 * INR n)).
        { apply Hcon. intros x Hx. destruct (Rle_or_lt (/ (2 * INR n)) (B2R (scaled x) - INR (whole x))) as [Y|Y]; [|exact Y].
          exfalso. apply X. apply Exists_exists. now exists x. }
        replace (INR n * / (2 * INR n)) with (/ 2) in H by (field; lra).
        apply (lt_le_S N n), le_INR in HN. rewrite S_INR in HN. lra. }
    destruct Hex as (x & Hx & Hr). exists x. split; [exact Hx|]. apply rest_ok; [now apply Hw|].
    eapply Rle_trans; [|exact Hr]. replace (- prec - 1)%Z with (- (prec + 1))%Z by ring. rewrite bpow_opp. apply Rinv_le; [lra|].
    rewrite bpow_plus. simpl (bpow 1). lra.
  Qed.

  Lemma residual_row_succeeds : exists l, residual_row fsum draw w = Ok l.
  Proof.
    unfold residual_row. cbv zeta. fold n fl rs. destruct fl_sum as (Fs & Es). pose proof N_le as NL.
    assert (E1 : existsb nonfinite fl = false).
    { apply existsb_false. intros y Hy. unfold fl in Hy. rewrite map_map in Hy. apply in_map_iff in Hy. destruct Hy as (x & <- & Hx).
      unfold nonfinite. destruct (fl_entry x (Hw x Hx)) as (Ff & _). unfold scaled in Ff. now rewrite Ff. }
    assert (E2 : existsb negative fl = false).
    { apply existsb_false. intros y Hy. unfold fl in Hy. rewrite map_map in Hy. apply in_map_iff in Hy. destruct Hy as (x & <- & Hx).
      destruct (fl_entry x (Hw x Hx)) as (Ff & Ef & _). apply Bltb_zero; [exact Ff|]. unfold scaled in Ef. rewrite Ef. apply pos_INR. }
    rewrite E1, E2. cbn [orb].
    change (@FloatResampling.repeat_interleave) with (@Resampling.repeat_interleave).
    assert (Er : map (fun x => Z.to_nat (Btrunc x)) fl = map whole w).
    { unfold fl. rewrite !map_map. reflexivity. }
    rewrite Er. destruct (ResamplingProofs.repeat_interleave_spec (map whole w) 0) as (R1 & _ & _). fold N in R1.
    assert (Ea : Z.to_nat (Btrunc (fsum fl)) = N).
    { rewrite INR_IZR_INZ in Es. rewrite (Btrunc_int _ _ Es). apply Nat2Z.id. }
    rewrite Ea, R1, Nat.min_l, Nat.eqb_refl by exact NL. cbn [negb].
    destruct (nat_float n (le_n n)) as (Fn & En).
    destruct (Beqb (fsum fl) (of_nat n)) eqn:Eb; [eexists; reflexivity|].
    rewrite Beqb_correct in Eb by assumption. rewrite Es, En in Eb.
    assert (Nlt : (N < n)%nat).
    { destruct (Req_bool_spec (INR N) (INR n)) as [Q|Q]; [discriminate|]. assert (N <> n) by congruence. lia. }
    unfold multinomial_checked.
    assert (Hrs : forall y, In y rs -> unit_interval y).
    { intros y Hy. rewrite rs_eq in Hy. apply in_map_iff in Hy. destruct Hy as (x & <- & Hx). apply rest_ok. now apply Hw. }
    assert (E3 : (n - N =? 0)%nat = false) by (apply Nat.eqb_neq; lia).
    assert (E4 : existsb nonfinite rs = false).
    { apply existsb_false. intros y Hy. unfold nonfinite. now rewrite (proj1 (Hrs y Hy)). }
    assert (E5 : existsb negative rs = false).
    { apply existsb_false. intros y Hy. destruct (Hrs y Hy) as (Fy & Ry). apply Bltb_zero; [exact Fy|lra]. }
    assert (E6 : Beqb (fsum rs) (B754_zero false) = false).
    { assert (Lr : length rs = n) by (rewrite rs_eq; apply map_length).
      destruct (added_up_bounds rs (fsum rs) (Hsum _) Hrs ltac:(rewrite Lr; exact Hbig)) as (Fr & _ & Mr & _).
      destruct (rest_pos Nlt) as (x & Hx & Px). specialize (Mr (rest x) ltac:(rewrite rs_eq; now apply in_map)).
      rewrite Beqb_correct by (try exact Fr; reflexivity). apply Req_bool_false. change (B2R (B754_zero false : float)) with 0. lra. }
    rewrite E3, E4, E5, E6. simpl. eexists; reflexivity.
  Qed.
End Residual.
