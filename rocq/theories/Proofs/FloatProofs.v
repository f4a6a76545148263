(** Floating point arithmetic: rounding of the operations used by resampling, searching, the grid. *)
From Coq Require Import ZArith Reals List Bool Lia Lra.
From Flocq Require Import Core.Core IEEE754.BinarySingleNaN.
From Flocq.Prop Require Import Relative Plus_error.
From Coquelicot Require Import Rcomplements.
From Verif.Model Require Import Base FloatResampling.
Import ListNotations.
Open Scope R_scope.

Section Rounding.
  Context {prec emax : Z} {Hp : Prec_gt_0 prec} {He : Prec_lt_emax prec emax}.
  Notation float := (binary_float prec emax).
  Notation fe := (SpecFloat.fexp prec emax).
  Notation emin := (SpecFloat.emin prec emax).
  Notation bpow := (bpow radix2).

  Definition rnd (x : R) : R := round radix2 fe ZnearestE x.
  Definition fmt (x : R) : Prop := generic_format radix2 fe x.
  (** Half the distance between 1 and the next number. *)
  Definition eps : R := bpow (- prec).

  Instance fe_valid : Valid_exp fe := FLT_exp_valid emin prec.
  Instance fe_mono : Monotone_exp fe := FLT_exp_monotone emin prec.

  Lemma prec_pos : (0 < prec)%Z. Proof. exact Hp. Qed.
  Lemma prec_emax : (prec < emax)%Z. Proof. exact He. Qed.
  Lemma emin_eq : emin = (3 - emax - prec)%Z. Proof. reflexivity. Qed.
  Lemma fe_eq e : fe e = Z.max (e - prec) emin. Proof. reflexivity. Qed.

  Lemma eps_pos : 0 < eps. Proof. apply bpow_gt_0. Qed.
  Lemma eps_le_half : eps <= /2.
  Proof. unfold eps. change (/2) with (bpow (-1)). apply bpow_le. pose proof prec_pos. lia. Qed.

  Lemma fmt_B2R (x : float) : fmt (B2R x). Proof. apply generic_format_B2R. Qed.
  Lemma fmt_0 : fmt 0. Proof. apply generic_format_0. Qed.
  Lemma fmt_bpow e : (emin <= e)%Z -> fmt (bpow e).
  Proof.
    intros H. apply generic_format_bpow. rewrite fe_eq. pose proof prec_pos. lia.
  Qed.
  Lemma emin_le_0 : (emin <= 0)%Z.
  Proof. rewrite emin_eq. pose proof prec_pos. pose proof prec_emax. lia. Qed.
  Lemma fmt_1 : fmt 1.
  Proof. change 1 with (bpow 0). apply fmt_bpow, emin_le_0. Qed.
  Lemma fmt_rnd x : fmt (rnd x). Proof. apply generic_format_round; auto with typeclass_instances. Qed.

  Lemma rnd_le x y : x <= y -> rnd x <= rnd y.
  Proof. apply round_le; auto with typeclass_instances. Qed.
  Lemma rnd_id x : fmt x -> rnd x = x.
  Proof. apply round_generic; auto with typeclass_instances. Qed.
  Lemma rnd_le_fmt x y : fmt y -> x <= y -> rnd x <= y.
  Proof. apply round_le_generic; auto with typeclass_instances. Qed.
  Lemma rnd_ge_fmt x y : fmt x -> x <= y -> x <= rnd y.
  Proof. apply round_ge_generic; auto with typeclass_instances. Qed.
  Lemma rnd_nonneg x : 0 <= x -> 0 <= rnd x.
  Proof. apply rnd_ge_fmt, fmt_0. Qed.
  Lemma rnd_0 : rnd 0 = 0. Proof. apply rnd_id, fmt_0. Qed.
  Lemma rnd_opp x : rnd (- x) = - rnd x.
  Proof. apply round_NE_opp. Qed.

  (** Absolute error below a power of two. *)
  Lemma rnd_error x k : (emin + prec - 1 <= k)%Z -> Rabs x <= bpow k -> Rabs (rnd x - x) <= bpow (k - prec).
  Proof.
    intros Hk Hx. eapply Rle_trans; [apply error_le_half_ulp; auto with typeclass_instances|].
    rewrite <- ulp_abs.
    eapply Rle_trans; [apply Rmult_le_compat_l; [lra|]|].
    - apply ulp_le_pos with (y := bpow k); auto with typeclass_instances; [apply Rabs_pos].
    - rewrite ulp_bpow, fe_eq. rewrite Z.max_l by lia.
      replace (k + 1 - prec)%Z with ((k - prec) + 1)%Z by lia. rewrite bpow_plus. simpl. lra.
  Qed.
  Lemma rnd_error_1 x : Rabs x <= 1 -> Rabs (rnd x - x) <= eps.
  Proof.
    intros H. apply (rnd_error x 0); [|exact H]. rewrite emin_eq. pose proof prec_pos. pose proof prec_emax. lia.
  Qed.
  Lemma rnd_error_2 x : Rabs x <= 2 -> Rabs (rnd x - x) <= 2 * eps.
  Proof.
    intros H. replace (2 * eps) with (bpow (1 - prec)).
    - apply rnd_error; [|exact H]. rewrite emin_eq. pose proof prec_pos. pose proof prec_emax. lia.
    - unfold Z.sub. rewrite bpow_plus. reflexivity.
  Qed.

  Lemma u_ro_eps : u_ro radix2 prec = eps.
  Proof. unfold u_ro, eps. rewrite bpow_plus. simpl. lra. Qed.

  (** Relative error of a sum of two numbers. *)
  Lemma rnd_plus x y : fmt x -> fmt y -> Rabs (rnd (x + y) - (x + y)) <= eps * Rabs (x + y).
  Proof.
    intros Hx Hy. destruct (FLT_plus_error_N_ex radix2 emin prec (fun x => negb (Z.even x)) x y Hx Hy) as (d & Hd & E).
    unfold rnd. change (round radix2 fe ZnearestE (x + y)) with (round radix2 (FLT_exp emin prec) ZnearestE (x + y)).
    rewrite E. replace ((x + y) * (1 + d) - (x + y)) with (d * (x + y)) by ring. rewrite Rabs_mult.
    apply Rmult_le_compat_r; [apply Rabs_pos|]. eapply Rle_trans; [exact Hd|]. rewrite u_ro_eps.
    pose proof eps_pos. apply Rmult_le_reg_r with (1 + eps); [lra|].
    unfold Rdiv. rewrite Rmult_assoc, Rinv_l, Rmult_1_r by lra.
    rewrite Rmult_plus_distr_l. assert (0 <= eps * eps) by (apply Rmult_le_pos; lra). lra.
  Qed.

  (** Relative error of a normal number, in the strict form. *)
  Lemma rnd_relative x : bpow (emin + prec - 1) <= Rabs x ->
    exists d, Rabs d <= eps / (1 + eps) /\ rnd x = x * (1 + d).
  Proof.
    intros Hx. destruct (relative_error_N_FLX'_ex radix2 prec Hp (fun x => negb (Z.even x)) x) as (d & Hd & E).
    rewrite u_ro_eps in Hd. exists d. split; [exact Hd|]. rewrite <- E. unfold rnd.
    apply (round_FLT_FLX radix2 emin prec). exact Hx.
  Qed.

  Lemma top_ok : (emin <= emax - 1)%Z.
  Proof. rewrite emin_eq. pose proof prec_pos. pose proof prec_emax. lia. Qed.

  Lemma no_overflow z : Rabs z <= bpow (emax - 1) -> Rlt_bool (Rabs (rnd z)) (bpow emax) = true.
  Proof.
    intros H. apply Rlt_bool_true. apply Rle_lt_trans with (bpow (emax - 1)).
    - apply abs_round_le_generic; auto with typeclass_instances. apply (fmt_bpow _ top_ok).
    - apply bpow_lt. lia.
  Qed.

  Lemma fadd_ok (x y : float) : is_finite x = true -> is_finite y = true -> Rabs (B2R x + B2R y) <= bpow (emax - 1) ->
    is_finite (fadd x y) = true /\ B2R (fadd x y) = rnd (B2R x + B2R y).
  Proof.
    intros Fx Fy H. pose proof (Bplus_correct prec emax Hp He mode_NE x y Fx Fy) as C.
    change (round_mode mode_NE) with ZnearestE in C. fold (rnd (B2R x + B2R y)) in C. rewrite (no_overflow _ H) in C.
    destruct C as (C1 & C2 & _). split; assumption.
  Qed.
  Lemma fsub_ok (x y : float) : is_finite x = true -> is_finite y = true -> Rabs (B2R x - B2R y) <= bpow (emax - 1) ->
    is_finite (fsub x y) = true /\ B2R (fsub x y) = rnd (B2R x - B2R y).
  Proof.
    intros Fx Fy H. pose proof (Bminus_correct prec emax Hp He mode_NE x y Fx Fy) as C.
    change (round_mode mode_NE) with ZnearestE in C. fold (rnd (B2R x - B2R y)) in C. rewrite (no_overflow _ H) in C.
    destruct C as (C1 & C2 & _). split; assumption.
  Qed.
  Lemma fmul_ok (x y : float) : is_finite x = true -> is_finite y = true -> Rabs (B2R x * B2R y) <= bpow (emax - 1) ->
    is_finite (fmul x y) = true /\ B2R (fmul x y) = rnd (B2R x * B2R y).
  Proof.
    intros Fx Fy H. pose proof (Bmult_correct prec emax Hp He mode_NE x y) as C.
    change (round_mode mode_NE) with ZnearestE in C. fold (rnd (B2R x * B2R y)) in C. rewrite (no_overflow _ H) in C.
    destruct C as (C1 & C2 & _). split; [|assumption]. unfold fmul. now rewrite C2, Fx, Fy.
  Qed.
  Lemma fdiv_ok (x y : float) : is_finite x = true -> B2R y <> 0 -> Rabs (B2R x / B2R y) <= bpow (emax - 1) ->
    is_finite (fdiv x y) = true /\ B2R (fdiv x y) = rnd (B2R x / B2R y).
  Proof.
    intros Fx Fy H. pose proof (Bdiv_correct prec emax Hp He mode_NE x y Fy) as C.
    change (round_mode mode_NE) with ZnearestE in C. fold (rnd (B2R x / B2R y)) in C. rewrite (no_overflow _ H) in C.
    destruct C as (C1 & C2 & _). split; [|assumption]. unfold fdiv. now rewrite C2, Fx.
  Qed.

  Lemma of_nat_ok n : INR n <= bpow (emax - 1) -> is_finite (of_nat n : float) = true /\ B2R (of_nat n : float) = rnd (INR n).
  Proof.
    intros H. unfold of_nat. pose proof (binary_normalize_correct prec emax Hp He mode_NE (Z.of_nat n) 0 false) as C.
    cbv zeta in C. change (round_mode mode_NE) with ZnearestE in C.
    assert (E : F2R (Float radix2 (Z.of_nat n) 0) = INR n).
    { unfold F2R; simpl. rewrite <- INR_IZR_INZ. ring. }
    rewrite E in C. fold (rnd (INR n)) in C. rewrite no_overflow in C.
    - destruct C as (C1 & C2 & _). split; assumption.
    - rewrite Rabs_pos_eq by apply pos_INR. exact H.
  Qed.

  Lemma fmt_nat n : INR n <= bpow prec -> fmt (INR n).
  Proof.
    intros H. destruct (Rle_lt_or_eq_dec _ _ H) as [H1|H1].
    - apply (generic_format_FLT radix2 emin prec). exists (Float radix2 (Z.of_nat n) 0); simpl.
      + unfold F2R; simpl. rewrite <- INR_IZR_INZ. ring.
      + rewrite Z.abs_eq by lia. apply lt_IZR. rewrite <- INR_IZR_INZ.
        rewrite (IZR_Zpower radix2) by (pose proof prec_pos; lia). exact H1.
      + apply emin_le_0.
    - rewrite H1. apply fmt_bpow. pose proof emin_le_0. pose proof prec_pos. lia.
  Qed.

  Lemma Bone_R : B2R (Bone : float) = 1. Proof. apply Bone_correct. Qed.
  Lemma Bone_F : is_finite (Bone : float) = true. Proof. apply is_finite_Bone. Qed.
End Rounding.

(** The bisection. *)
Section Search.
  Context {prec emax : Z} {Hp : Prec_gt_0 prec} {He : Prec_lt_emax prec emax}.
  Notation float := (binary_float prec emax).

  Lemma lower_bound_spec (bd : nat -> float) val : forall fuel start stop, (stop - start <= fuel)%nat -> (start <= stop)%nat ->
    let r := lower_bound fuel start stop bd val in
    (start <= r <= stop)%nat /\
    (r = stop \/ Bleb val (bd r) = true) /\
    (r = start \/ Bleb val (bd (r - 1)%nat) = false).
  Proof.
    induction fuel as [|fuel IH]; intros start stop Hf Hs; cbn [lower_bound].
    - replace stop with start by lia. auto.
    - destruct (start <? stop)%nat eqn:E.
      + apply Nat.ltb_lt in E. set (mid := (start + (stop - start) / 2)%nat).
        assert (Hmid : (start <= mid < stop)%nat).
        { unfold mid. assert ((stop - start) / 2 < stop - start)%nat by (apply Nat.div_lt; lia). lia. }
        assert (Hhalf : (mid - start <= (stop - start) / 2)%nat) by (unfold mid; lia).
        assert (Hh : (2 * ((stop - start) / 2) <= stop - start)%nat) by (apply Nat.mul_div_le; lia).
        cbv zeta. destruct (Bleb val (bd mid)) eqn:Em; cbn [negb].
        * destruct (IH start mid) as (A & B & C); [lia|lia|]. split; [lia|]. split; [|exact C].
          right. destruct B as [->|B]; [exact Em|exact B].
        * destruct (IH (S mid) stop) as (A & B & C); [lia|lia|]. split; [lia|]. split; [exact B|].
          right. destruct C as [->|C]; [|exact C]. replace (S mid - 1)%nat with mid by lia. exact Em.
      + apply Nat.ltb_ge in E. split; [lia|]. split; left; lia.
  Qed.

  Lemma searchsorted_spec (l : list float) val :
    let r := searchsorted l val in
    (r <= length l)%nat /\
    (r = length l \/ Bleb val (nth r l B754_nan) = true) /\
    (r = 0%nat \/ Bleb val (nth (r - 1) l B754_nan) = false).
  Proof.
    destruct (lower_bound_spec (fun i => nth i l B754_nan) val (length l) 0 (length l)) as (A & B & C); [lia|lia|].
    split; [apply A|]. split; assumption.
  Qed.

  Lemma lower_bound_mono (bd : nat -> float) v v' :
    (forall i, Bleb v' (bd i) = true -> Bleb v (bd i) = true) ->
    forall fuel start stop, (stop - start <= fuel)%nat -> (start <= stop)%nat ->
    (lower_bound fuel start stop bd v <= lower_bound fuel start stop bd v')%nat.
  Proof.
    intros Hv. induction fuel as [|fuel IH]; intros start stop Hf Hs; cbn [lower_bound]; [lia|].
    destruct (start <? stop)%nat eqn:E; [|lia].
    apply Nat.ltb_lt in E. set (mid := (start + (stop - start) / 2)%nat).
    assert (Hmid : (start <= mid < stop)%nat).
    { unfold mid. assert ((stop - start) / 2 < stop - start)%nat by (apply Nat.div_lt; lia). lia. }
    assert (Hhalf : (mid - start <= (stop - start) / 2)%nat) by (unfold mid; lia).
    assert (Hh : (2 * ((stop - start) / 2) <= stop - start)%nat) by (apply Nat.mul_div_le; lia).
    cbv zeta. destruct (Bleb v' (bd mid)) eqn:E'.
    - rewrite (Hv _ E'). cbn [negb]. apply IH; lia.
    - cbn [negb]. destruct (Bleb v (bd mid)); cbn [negb]; [|apply IH; lia].
      destruct (lower_bound_spec bd v fuel start mid) as ((_ & A) & _); [lia|lia|].
      destruct (lower_bound_spec bd v' fuel (S mid) stop) as ((B & _) & _); [lia|lia|]. lia.
  Qed.

  Lemma Bleb_le (x y : float) : is_finite x = true -> is_finite y = true -> (Bleb x y = true <-> B2R x <= B2R y).
  Proof.
    intros Fx Fy. rewrite Bleb_correct by assumption. destruct (Rle_bool_spec (B2R x) (B2R y)); split; intros; try lra; easy.
  Qed.

  Lemma Bleb_down (v v' b : float) : is_finite v = true -> is_finite v' = true -> B2R v <= B2R v' ->
    Bleb v' b = true -> Bleb v b = true.
  Proof.
    intros Fv Fv' Hle H. destruct (is_finite b) eqn:Fb.
    - apply Bleb_le; try assumption. apply (Bleb_le v' b) in H; try assumption. lra.
    - destruct b as [s|[|]| |s m e Hb]; try discriminate Fb;
        destruct v as [s1|[|]| |[|] m1 e1 H1]; try discriminate Fv;
        destruct v' as [s2|[|]| |[|] m2 e2 H2]; try discriminate Fv'; try discriminate H; reflexivity.
  Qed.

  Lemma length_set_last (v : float) l : length (set_last v l) = length l.
  Proof. induction l as [|a [|b l] IH]; simpl in *; auto. Qed.

  Lemma nth_set_last_last (v : float) l d : l <> [] -> nth (length l - 1) (set_last v l) d = v.
  Proof.
    induction l as [|a [|b l] IH]; intros H; [congruence|reflexivity|].
    change (set_last v (a :: b :: l)) with (a :: set_last v (b :: l)).
    specialize (IH ltac:(discriminate)). cbn [length] in *. replace (S (S (length l)) - 1)%nat with (S (S (length l) - 1)) by lia.
    exact IH.
  Qed.

  Lemma nth_set_last_other (v : float) l i d : (i < length l - 1)%nat -> nth i (set_last v l) d = nth i l d.
  Proof.
    revert i; induction l as [|a [|b l] IH]; intros i H; simpl in H; try lia.
    change (set_last v (a :: b :: l)) with (a :: set_last v (b :: l)).
    destruct i as [|i]; [reflexivity|]. cbn [nth]. apply IH. simpl. lia.
  Qed.
End Search.

(** The grid. *)
Section Grid.
  Context {prec emax : Z} {Hp : Prec_gt_0 prec} {He : Prec_lt_emax prec emax}.
  Notation float := (binary_float prec emax).
  Notation bpow := (bpow radix2).
  Notation emin := (SpecFloat.emin prec emax).
  Notation rnd := (@rnd prec emax).
  Notation fmt := (@fmt prec emax).
  Notation eps := (@eps prec).
  Variables (n : nat) (u : float).
  Hypothesis Hn : (0 < n)%nat.
  Hypothesis Hbig : INR n <= bpow prec.
  Hypothesis Hwide : (prec + 3 <= emax)%Z.
  Hypothesis Fu : is_finite u = true.
  Hypothesis Hu : 0 <= B2R u <= 1.

  Lemma INR_k k : (k < n)%nat -> INR k + 1 <= INR n.
  Proof. intros H. rewrite <- S_INR. apply le_INR. lia. Qed.
  Lemma INR_n : 1 <= INR n.
  Proof. change 1 with (INR 1). apply le_INR. lia. Qed.
  Lemma top : bpow prec <= bpow (emax - 1).
  Proof. apply bpow_le. pose proof (prec_emax (emax := emax)). lia. Qed.

  Lemma nat_ok k : (k <= n)%nat -> is_finite (of_nat k : float) = true /\ B2R (of_nat k : float) = INR k.
  Proof.
    intros Hk. apply le_INR in Hk. pose proof top. destruct (of_nat_ok (prec := prec) (emax := emax) k) as (F & E); [lra|].
    split; [exact F|]. rewrite E. apply rnd_id, fmt_nat. lra.
  Qed.

  (** [index_range + u]. *)
  Definition pos (k : nat) : R := rnd (INR k + B2R u).
  Lemma pos_ok k : (k < n)%nat ->
    is_finite (fadd (of_nat k) u) = true /\ B2R (fadd (of_nat k) u) = pos k.
  Proof.
    intros Hk. pose proof (INR_k k Hk) as H1. pose proof (pos_INR k) as H0. pose proof top.
    destruct (nat_ok k ltac:(lia)) as (F & E).
    unfold pos. rewrite <- E. apply fadd_ok; try assumption. rewrite E, Rabs_pos_eq by lra. lra.
  Qed.
  Lemma pos_range k : (k < n)%nat -> INR k <= pos k <= INR k + 1.
  Proof.
    intros Hk. pose proof (INR_k k Hk) as H1. pose proof (pos_INR k) as H0. split.
    - apply rnd_ge_fmt; [apply fmt_nat; lra|lra].
    - apply rnd_le_fmt; [|lra]. rewrite <- S_INR. apply fmt_nat. rewrite S_INR. lra.
  Qed.
  Lemma pos_error k : (k < n)%nat -> Rabs (pos k - (INR k + B2R u)) <= eps * INR n.
  Proof.
    intros Hk. pose proof (INR_k k Hk) as H1. pose proof (pos_INR k) as H0. unfold pos.
    eapply Rle_trans; [apply rnd_plus; [apply fmt_nat; lra|apply fmt_B2R]|].
    apply Rmult_le_compat_l; [apply Rlt_le, eps_pos|]. rewrite Rabs_pos_eq by lra. lra.
  Qed.

  (** The value of the grid as a real number. *)
  Definition grid_value (how : division) (k : nat) : R :=
    match how with
    | ByDivision => rnd (pos k / INR n)
    | ByReciprocal => rnd (pos k * rnd (1 / INR n))
    end.

  Lemma inv_n : 0 < 1 / INR n <= 1.
  Proof.
    pose proof INR_n. unfold Rdiv. rewrite Rmult_1_l. split; [apply Rinv_0_lt_compat; lra|].
    rewrite <- Rinv_1. apply Rinv_le; lra.
  Qed.
  Lemma recip_ok : exists d, Rabs d <= eps / (1 + eps) /\ rnd (1 / INR n) = 1 / INR n * (1 + d).
  Proof.
    apply rnd_relative. pose proof inv_n as Hi. rewrite Rabs_pos_eq by lra.
    apply Rle_trans with (bpow (- prec)).
    - apply bpow_le. rewrite emin_eq. lia.
    - rewrite bpow_opp. unfold Rdiv. rewrite Rmult_1_l. pose proof INR_n. apply Rinv_le; [lra|exact Hbig].
  Qed.

  Lemma eps_frac : 0 < eps / (1 + eps) < eps.
  Proof.
    pose proof (eps_pos (prec := prec)). split.
    - apply Rdiv_lt_0_compat; lra.
    - apply Rmult_lt_reg_r with (1 + eps); [lra|]. unfold Rdiv. rewrite Rmult_assoc, Rinv_l, Rmult_1_r by lra.
      rewrite Rmult_plus_distr_l. assert (0 < eps * eps) by (apply Rmult_lt_0_compat; lra). lra.
  Qed.

  (** Below the middle between 1 and the next number, rounding gives at most 1. *)
  Lemma rnd_le_1 x : x < 1 + eps -> rnd x <= 1.
  Proof.
    intros H. apply round_N_le_midp; [apply fe_valid|apply fmt_1|].
    rewrite succ_eq_pos by lra. replace (ulp radix2 (SpecFloat.fexp prec emax) 1) with (2 * eps); [lra|].
    change 1 with (bpow 0) at 1. rewrite ulp_bpow, fe_eq, Z.max_l by (rewrite emin_eq; pose proof (prec_pos (prec := prec)); lia).
    unfold FloatProofs.eps. change 2 with (bpow 1). rewrite <- bpow_plus. reflexivity.
  Qed.

  Lemma frac_range k : (k < n)%nat -> 0 <= pos k / INR n <= 1.
  Proof.
    intros Hk. pose proof (pos_range k Hk). pose proof (pos_INR k). pose proof (INR_k k Hk). pose proof INR_n. split.
    - apply Rdiv_le_0_compat; lra.
    - apply Rmult_le_reg_r with (INR n); [lra|]. unfold Rdiv. rewrite Rmult_assoc, Rinv_l by lra. lra.
  Qed.

  Lemma grid_ok how k : (k < n)%nat ->
    is_finite (grid how n u k) = true /\ B2R (grid how n u k) = grid_value how k.
  Proof.
    intros Hk. destruct (pos_ok k Hk) as (F & E). destruct (nat_ok n ltac:(lia)) as (Fn & En). pose proof INR_n as H1n.
    pose proof (frac_range k Hk) as Hfr. pose proof (bpow_gt_0 radix2 prec) as Hb. pose proof top as Ht.
    assert (Hone : 1 <= bpow (emax - 1)) by lra.
    unfold grid, div_scalar, grid_value. destruct how.
    - rewrite <- E, <- En. apply fdiv_ok; [exact F|rewrite En; lra|]. rewrite E, En, Rabs_pos_eq; lra.
    - destruct (fdiv_ok (Bone : float) (of_nat n)) as (Fr & Er).
      + apply Bone_F.
      + rewrite En; lra.
      + rewrite Bone_R, En. pose proof inv_n. rewrite Rabs_pos_eq; lra.
      + rewrite Bone_R, En in Er. rewrite <- E, <- Er. apply fmul_ok; try assumption. rewrite E, Er.
        destruct recip_ok as (d & Hd & ->). pose proof eps_frac. pose proof (eps_le_half (prec := prec)).
        replace (pos k * (1 / INR n * (1 + d))) with (pos k / INR n * (1 + d)) by (field; lra).
        assert (-1 <= d <= 1). { apply Rabs_le_between. lra. }
        rewrite Rabs_mult, (Rabs_pos_eq (pos k / INR n)) by lra. rewrite (Rabs_pos_eq (1 + d)) by lra.
        apply Rle_trans with (1 * 2); [apply Rmult_le_compat; lra|].
        apply Rle_trans with (bpow 1); [simpl; lra|]. apply bpow_le. pose proof (prec_pos (prec := prec)). lia.
  Qed.

  Lemma grid_value_range how k : (k < n)%nat -> 0 <= grid_value how k <= 1.
  Proof.
    intros Hk. pose proof (frac_range k Hk) as Hfr. pose proof INR_n. destruct how; simpl.
    - split; [apply rnd_nonneg; lra|]. apply rnd_le_fmt; [apply fmt_1|lra].
    - destruct recip_ok as (d & Hd & ->). pose proof eps_frac. pose proof (eps_le_half (prec := prec)).
      replace (pos k * (1 / INR n * (1 + d))) with (pos k / INR n * (1 + d)) by (field; lra).
      assert (- (eps / (1 + eps)) <= d <= eps / (1 + eps)) by now apply Rabs_le_between.
      split; [apply rnd_nonneg, Rmult_le_pos; lra|]. apply rnd_le_1.
      apply Rle_lt_trans with (1 * (1 + d)); [apply Rmult_le_compat_r; lra|lra].
  Qed.

  Lemma pos_mono k k' : (k < k')%nat -> (k' < n)%nat -> pos k <= pos k'.
  Proof.
    intros H H'. pose proof (pos_range k ltac:(lia)). pose proof (pos_range k' H').
    assert (INR k + 1 <= INR k'); [|lra]. rewrite <- S_INR. apply le_INR. lia.
  Qed.

  Lemma grid_value_mono how k k' : (k < k')%nat -> (k' < n)%nat -> grid_value how k <= grid_value how k'.
  Proof.
    intros H H'. pose proof (pos_mono k k' H H'). pose proof INR_n. destruct how; simpl; apply rnd_le.
    - apply Rmult_le_compat_r; [|assumption]. apply Rlt_le, Rinv_0_lt_compat. lra.
    - apply Rmult_le_compat_r; [|assumption]. apply rnd_nonneg. pose proof inv_n. lra.
  Qed.

  (** No grid number is zero when the offset is not. *)
  Lemma grid_value_pos how k : eps <= B2R u -> (k < n)%nat -> 0 < grid_value how k.
  Proof.
    intros He0 Hk. pose proof INR_n as HN. pose proof (eps_pos (prec := prec)) as Pe. pose proof (pos_INR k) as Pk.
    assert (Hpos : eps <= pos k).
    { apply rnd_ge_fmt; [apply fmt_bpow; rewrite emin_eq; pose proof (prec_pos (prec := prec)); lia|lra]. }
    assert (Hi : eps <= 1 / INR n).
    { unfold FloatProofs.eps. rewrite bpow_opp. unfold Rdiv. rewrite Rmult_1_l. apply Rinv_le; lra. }
    assert (Hi' : eps <= rnd (1 / INR n)).
    { apply rnd_ge_fmt; [apply fmt_bpow; rewrite emin_eq; pose proof (prec_pos (prec := prec)); lia|exact Hi]. }
    apply Rlt_le_trans with (eps * eps); [apply Rmult_lt_0_compat; lra|].
    assert (Hf : fmt (eps * eps)).
    { unfold FloatProofs.eps. rewrite <- bpow_plus. apply fmt_bpow. rewrite emin_eq. lia. }
    destruct how; simpl; apply rnd_ge_fmt; try exact Hf.
    - replace (pos k / INR n) with (pos k * (1 / INR n)) by (field; lra). apply Rmult_le_compat; lra.
    - apply Rmult_le_compat; lra.
  Qed.

  (** The grid is within four half-units of the exact one. *)
  Lemma grid_value_error how k : (k < n)%nat -> Rabs (grid_value how k - (INR k + B2R u) / INR n) <= 4 * eps.
  Proof.
    intros Hk. pose proof (frac_range k Hk) as Hfr. pose proof INR_n as HN. pose proof (eps_pos (prec := prec)) as He0.
    pose proof (eps_le_half (prec := prec)) as He1.
    assert (H1 : Rabs (pos k / INR n - (INR k + B2R u) / INR n) <= eps).
    { replace (pos k / INR n - (INR k + B2R u) / INR n) with ((pos k - (INR k + B2R u)) / INR n) by (field; lra).
      unfold Rdiv. rewrite Rabs_mult, (Rabs_pos_eq (/ INR n)) by (apply Rlt_le, Rinv_0_lt_compat; lra).
      apply Rmult_le_reg_r with (INR n); [lra|]. rewrite Rmult_assoc, Rinv_l, Rmult_1_r by lra. now apply pos_error. }
    apply Rabs_le_between in H1.
    destruct how; simpl.
    - pose proof (rnd_error_1 (prec := prec) (emax := emax) (pos k / INR n) ltac:(rewrite Rabs_pos_eq; lra)) as H2.
      apply Rabs_le_between in H2. apply Rabs_le. lra.
    - destruct recip_ok as (d & Hd & ->). pose proof eps_frac.
      replace (pos k * (1 / INR n * (1 + d))) with (pos k / INR n * (1 + d)) by (field; lra).
      assert (Hd' : - eps <= d <= eps). { apply Rabs_le_between. lra. }
      set (x := pos k / INR n) in *.
      assert (H3 : Rabs (x * (1 + d)) <= 2).
      { rewrite Rabs_pos_eq by (apply Rmult_le_pos; lra). apply Rle_trans with (1 * 2); [apply Rmult_le_compat; lra|lra]. }
      pose proof (rnd_error_2 (prec := prec) (emax := emax) _ H3) as H4. apply Rabs_le_between in H4.
      assert (H5 : - eps <= x * d <= eps).
      { split.
        - apply Rle_trans with (x * - eps); [|apply Rmult_le_compat_l; lra].
          assert (x * eps <= 1 * eps) by (apply Rmult_le_compat_r; lra). lra.
        - apply Rle_trans with (x * eps); [apply Rmult_le_compat_l; lra|].
          assert (x * eps <= 1 * eps) by (apply Rmult_le_compat_r; lra). lra. }
      replace (x * (1 + d)) with (x + x * d) in * by ring. apply Rabs_le. lra.
  Qed.
End Grid.
