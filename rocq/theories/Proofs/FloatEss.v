(** get_ess in floating point arithmetic. *)
From Coq Require Import ZArith Reals List Bool Lia Lra Permutation.
From Flocq Require Import Core.Core IEEE754.BinarySingleNaN.
From Flocq.Prop Require Import Relative.
From Coquelicot Require Import Rcomplements.
From Verif.Model Require Import Base FloatResampling.
From Verif.Spec Require Import WeightsSpec FloatSpec.
From Verif.Proofs Require Import FloatProofs FloatNormalize.
Import ListNotations.
Open Scope R_scope.

Lemma sum_squares (l : list R) : Rsum l * Rsum l <= INR (length l) * Rsum (map (fun x => x * x) l).
Proof.
  destruct l as [|a0 l0]; [unfold Rsum; simpl; lra|]. set (l := a0 :: l0).
  assert (Pn : 0 < INR (length l)) by (apply lt_0_INR; unfold l; simpl; lia).
  assert (H : forall c k, 0 <= Rsum (map (fun x => x * x) k) - 2 * c * Rsum k + INR (length k) * (c * c)).
  { intros c k. unfold Rsum. induction k as [|a k IH]; [simpl; lra|].
    assert (0 <= (a - c) * (a - c)) by apply Rle_0_sqr. simpl length. rewrite S_INR. simpl map. simpl fold_right. lra. }
  specialize (H (Rsum l / INR (length l)) l).
  assert (E : INR (length l) * (Rsum (map (fun x => x * x) l) - 2 * (Rsum l / INR (length l)) * Rsum l +
    INR (length l) * (Rsum l / INR (length l) * (Rsum l / INR (length l)))) =
    INR (length l) * Rsum (map (fun x => x * x) l) - Rsum l * Rsum l) by (field; lra).
  assert (0 <= INR (length l) * Rsum (map (fun x => x * x) l) - Rsum l * Rsum l); [|lra].
  rewrite <- E. apply Rmult_le_pos; lra.
Qed.

Lemma sum_squares_le (l : list R) : (forall x, In x l -> 0 <= x <= 1) -> Rsum (map (fun x => x * x) l) <= Rsum l.
Proof.
  unfold Rsum. induction l as [|a l IH]; intros H; simpl; [lra|]. pose proof (H a (or_introl eq_refl)) as Ha.
  specialize (IH ltac:(intros; apply H; now right)). assert (0 <= a * (1 - a)) by (apply Rmult_le_pos; lra). lra.
Qed.

Section Ess.
  Context {prec emax : Z} {Hp : Prec_gt_0 prec} {He : Prec_lt_emax prec emax}.
  Notation float := (binary_float prec emax).
  Notation rnd := (@FloatProofs.rnd prec emax).
  Notation eps := (@FloatProofs.eps prec).
  Notation emin := (SpecFloat.emin prec emax).
  Notation bpow := (bpow radix2).
  Hypothesis Hwide : (prec + 3 <= emax)%Z.
  Hypothesis Hwide2 : (2 * prec <= emax + 9)%Z.
  Variable fsum : list float -> float.
  Hypothesis Hsum : adds_up fsum.
  Variable p : list float.
  Hypothesis Hne : p <> [].
  Hypothesis Hp01 : forall x, In x p -> unit_interval x.
  Hypothesis Hsmall : INR (length p) * eps <= / 64.
  Hypothesis Hone : Rabs (Rsum (map B2R p) - 1) <= 4 * INR (length p) * eps.

  Let n : R := INR (length p).
  Let t : R := n * eps.
  Let P : R := Rsum (map B2R p).
  Let Q : R := Rsum (map (fun x => x * x) (map B2R p)).
  Let sq : list float := map (fun x => fmul x x) p.
  Let q : R := Rsum (map B2R sq).
  Let s : float := fsum sq.

  Lemma en_ge_1 : 1 <= n.
  Proof.
    unfold n. destruct p as [|a l]; [congruence|]. simpl length. rewrite S_INR. pose proof (pos_INR (length l)). lra.
  Qed.
  Lemma t_range : eps <= t <= / 64 /\ 0 < eps.
  Proof.
    pose proof en_ge_1. pose proof (eps_pos (prec := prec)) as Pe. split; [|exact Pe]. split; [|exact Hsmall].
    unfold t. rewrite <- (Rmult_1_l eps) at 1. apply Rmult_le_compat_r; lra.
  Qed.
  Lemma en_le : n <= bpow (prec - 6).
  Proof.
    pose proof (eps_pos (prec := prec)) as Pe. apply Rmult_le_reg_r with eps; [exact Pe|]. eapply Rle_trans; [exact Hsmall|].
    unfold FloatProofs.eps. rewrite <- bpow_plus. replace (prec - 6 + - prec)%Z with (-6)%Z by ring. simpl. lra.
  Qed.
  Lemma en_le_prec : n <= bpow prec.
  Proof. eapply Rle_trans; [apply en_le|apply bpow_le; lia]. Qed.

  Lemma sq_ok x : In x p -> unit_interval (fmul x x) /\
    Rabs (B2R (fmul x x) - B2R x * B2R x) <= eps * (B2R x * B2R x) + / 2 * bpow emin.
  Proof.
    intros Hx. destruct (Hp01 x Hx) as (F & R). pose proof (prec_pos (prec := prec)) as Pp.
    assert (B : 0 <= B2R x * B2R x <= 1).
    { split; [apply Rmult_le_pos; lra|]. rewrite <- (Rmult_1_l 1). apply Rmult_le_compat; lra. }
    destruct (fmul_ok x x F F) as (Fm & Em).
    { rewrite Rabs_pos_eq by lra. apply Rle_trans with 1; [lra|]. change 1 with (bpow 0). apply bpow_le. lia. }
    split.
    - split; [exact Fm|]. rewrite Em. split; [apply rnd_nonneg; lra|]. apply rnd_le_fmt; [apply fmt_1|lra].
    - rewrite Em. destruct (relative_error_N_FLT'_ex radix2 emin prec Hp (fun x => negb (Z.even x)) (B2R x * B2R x)) as (d & h & Hd & Hh & _ & E).
      change (rnd (B2R x * B2R x)) with (round radix2 (FLT_exp emin prec) ZnearestE (B2R x * B2R x)). rewrite E.
      replace (B2R x * B2R x * (1 + d) + h - B2R x * B2R x) with (d * (B2R x * B2R x) + h) by ring.
      eapply Rle_trans; [apply Rabs_triang|]. apply Rplus_le_compat; [|exact Hh]. rewrite Rabs_mult, (Rabs_pos_eq (B2R x * B2R x)) by lra.
      apply Rmult_le_compat_r; [lra|]. eapply Rle_trans; [exact Hd|]. rewrite u_ro_eps.
      pose proof (eps_pos (prec := prec)). apply Rle_div_l; [lra|]. assert (0 <= eps * eps) by (apply Rmult_le_pos; lra). lra.
  Qed.

  Lemma P_range : 1 - 4 * t <= P <= 1 + 4 * t.
  Proof.
    pose proof Hone as H. apply Rabs_le_between in H. fold P in H. replace (4 * INR (length p) * eps) with (4 * t) in H by (unfold t, n; ring). lra.
  Qed.
  Lemma Q_lower : (1 - 4 * t) * (1 - 4 * t) <= n * Q.
  Proof.
    pose proof (sum_squares (map B2R p)) as H. rewrite map_length in H. fold n P Q in H. pose proof P_range as B.
    pose proof t_range as T. eapply Rle_trans; [|exact H]. apply Rmult_le_compat; lra.
  Qed.
  Lemma Q_upper : 0 < Q <= 1 + 4 * t.
  Proof.
    split.
    - pose proof Q_lower as L. pose proof t_range as T. pose proof en_ge_1 as N.
      assert (0 < (1 - 4 * t) * (1 - 4 * t)) by (apply Rmult_lt_0_compat; lra).
      apply Rmult_lt_reg_l with n; lra.
    - eapply Rle_trans; [|apply P_range]. apply sum_squares_le. intros x Hx. apply in_map_iff in Hx. destruct Hx as (y & <- & Hy).
      now apply Hp01.
  Qed.

  Lemma underflow_small : n * (/ 2 * bpow emin) <= eps * Q.
  Proof.
    pose proof t_range as T. pose proof en_ge_1 as N. pose proof Q_lower as L. pose proof en_le as U.
    assert (HQ : / 2 <= n * Q).
    { eapply Rle_trans; [|exact L]. apply Rle_trans with (15 / 16 * (15 / 16)); [lra|]. apply Rmult_le_compat; lra. }
    apply Rmult_le_reg_l with n; [lra|].
    assert (H : n * (n * (/ 2 * bpow emin)) <= eps * / 2).
    { apply Rle_trans with (bpow (prec - 6) * (bpow (prec - 6) * (/ 2 * bpow emin))).
      - pose proof (bpow_ge_0 radix2 emin). assert (0 <= n * (/ 2 * bpow emin)) by (apply Rmult_le_pos; lra).
        apply Rmult_le_compat; [lra|assumption|exact U|]. apply Rmult_le_compat_r; lra.
      - replace (bpow (prec - 6) * (bpow (prec - 6) * (/ 2 * bpow emin))) with (bpow (prec - 6 + (prec - 6) + emin) * / 2).
        + apply Rmult_le_compat_r; [lra|]. unfold FloatProofs.eps. apply bpow_le. unfold SpecFloat.emin. lia.
        + rewrite !bpow_plus. ring. }
    assert (eps * / 2 <= eps * (n * Q)) by (apply Rmult_le_compat_l; lra).
    lra.
  Qed.

  Lemma Rsum_diff_rel (k : list float) c h : (forall x, In x k -> Rabs (B2R (fmul x x) - B2R x * B2R x) <= c * (B2R x * B2R x) + h) ->
    Rabs (Rsum (map B2R (map (fun x => fmul x x) k)) - Rsum (map (fun x => x * x) (map B2R k))) <=
      c * Rsum (map (fun x => x * x) (map B2R k)) + INR (length k) * h.
  Proof.
    unfold Rsum. induction k as [|a k IH]; intros H.
    - simpl. rewrite Rminus_0_r, Rabs_R0. lra.
    - specialize (IH ltac:(intros; apply H; now right)). pose proof (H a (or_introl eq_refl)) as Ha. simpl length. rewrite S_INR.
      simpl map. simpl fold_right. apply Rabs_le_between in IH. apply Rabs_le_between in Ha. apply Rabs_le. lra.
  Qed.

  Lemma q_error : Rabs (q - Q) <= 2 * eps * Q.
  Proof.
    pose proof (Rsum_diff_rel p eps (/ 2 * bpow emin) ltac:(intros; now apply sq_ok)) as H. fold sq q Q n in H.
    pose proof underflow_small. lra.
  Qed.

  Lemma s_ok : is_finite s = true /\ (1 - 2 * t) * ((1 - 2 * t) * Q) <= B2R s <= (1 + 2 * t) * ((1 + 2 * t) * Q).
  Proof.
    assert (H01 : forall x, In x sq -> unit_interval x).
    { intros x Hx. apply in_map_iff in Hx. destruct Hx as (y & <- & Hy). now apply sq_ok. }
    assert (El : length sq = length p) by apply map_length.
    pose proof t_range as T. pose proof Q_upper as QU.
    destruct (added_up_bounds sq s (Hsum _) H01 ltac:(rewrite El; apply en_le_prec)) as (F & _).
    split; [exact F|].
    pose proof (added_up_error sq s (Hsum _) H01 ltac:(rewrite El; apply en_le_prec) ltac:(rewrite El; unfold t, n in T; lra)) as E.
    rewrite El in E. fold n q in E. replace (2 * n * eps * q) with (2 * t * q) in E by (unfold t; ring).
    pose proof q_error as Eq. apply Rabs_le_between in E. apply Rabs_le_between in Eq.
    assert (eps * Q <= t * Q) by (apply Rmult_le_compat_r; lra).
    split.
    - apply Rle_trans with ((1 - 2 * t) * q); [apply Rmult_le_compat_l; lra|lra].
    - apply Rle_trans with ((1 + 2 * t) * q); [lra|apply Rmult_le_compat_l; lra].
  Qed.

  Lemma s_pos : 0 < B2R s.
  Proof.
    destruct s_ok as (_ & L & _). pose proof t_range as T. pose proof Q_upper as QU. eapply Rlt_le_trans; [|exact L].
    apply Rmult_lt_0_compat; [lra|]. apply Rmult_lt_0_compat; lra.
  Qed.

  Lemma s_le_2 : B2R s <= 2.
  Proof.
    destruct s_ok as (_ & _ & U). pose proof t_range as T. pose proof Q_upper as QU.
    eapply Rle_trans; [exact U|]. apply Rle_trans with (33 / 32 * (33 / 32 * (17 / 16))); [|lra].
    apply Rmult_le_compat; [lra| |lra|apply Rmult_le_compat; lra]. apply Rmult_le_pos; lra.
  Qed.

  Lemma s_lower : / (4 * n) <= B2R s.
  Proof.
    destruct s_ok as (_ & L & _). pose proof t_range as T. pose proof Q_lower as QL. pose proof en_ge_1 as N. pose proof Q_upper as QU.
    eapply Rle_trans; [|exact L]. apply Rmult_le_reg_l with (4 * n); [lra|]. rewrite Rinv_r by lra.
    replace (4 * n * ((1 - 2 * t) * ((1 - 2 * t) * Q))) with (4 * ((1 - 2 * t) * (1 - 2 * t)) * (n * Q)) by ring.
    assert (H1 : 15 / 16 * (15 / 16) <= (1 - 2 * t) * (1 - 2 * t)) by (apply Rmult_le_compat; lra).
    assert (H2 : 15 / 16 * (15 / 16) <= n * Q).
    { eapply Rle_trans; [|exact QL]. apply Rmult_le_compat; lra. }
    apply Rle_trans with (4 * (15 / 16 * (15 / 16)) * (15 / 16 * (15 / 16))); [lra|]. apply Rmult_le_compat; lra.
  Qed.

  Definition ess : float := fdiv Bone s.

  Lemma ess_ok : is_finite ess = true /\ exists d, Rabs d <= eps /\ B2R ess = / B2R s * (1 + d).
  Proof.
    pose proof s_pos as Sp. pose proof s_le_2 as S2. pose proof s_lower as SL. pose proof en_ge_1 as N. pose proof t_range as T.
    pose proof (prec_pos (prec := prec)) as Pp.
    destruct (fdiv_ok (Bone : float) s Bone_F ltac:(lra)) as (F & Ee).
    { rewrite Bone_R. unfold Rdiv. rewrite Rmult_1_l, Rabs_pos_eq by (left; now apply Rinv_0_lt_compat).
      apply Rle_trans with (4 * n); [|].
      - rewrite <- (Rinv_involutive (4 * n)) by lra. apply Rinv_le; [apply Rinv_0_lt_compat; lra|exact SL].
      - apply Rle_trans with (bpow 2 * bpow (prec - 6)); [simpl bpow; pose proof en_le; lra|]. rewrite <- bpow_plus. apply bpow_le. lia. }
    split; [exact F|].
    destruct (rnd_relative (prec := prec) (emax := emax) (B2R (Bone : float) / B2R s)) as (d & Hd & E).
    - rewrite Bone_R. unfold Rdiv. rewrite Rmult_1_l, Rabs_pos_eq by (left; now apply Rinv_0_lt_compat).
      apply Rle_trans with (/ 2); [|apply Rinv_le; lra]. change (/ 2) with (bpow (-1)). apply bpow_le. unfold SpecFloat.emin. lia.
    - exists d. split.
      + eapply Rle_trans; [exact Hd|]. apply Rle_div_l; [lra|]. assert (0 <= eps * eps) by (apply Rmult_le_pos; lra). lra.
      + unfold ess. rewrite Ee, E, Bone_R. unfold Rdiv. ring.
  Qed.

  Lemma ess_lower : 1 - 9 * t <= B2R ess.
  Proof.
    destruct ess_ok as (_ & d & Hd & E). pose proof s_pos as Sp. pose proof t_range as T. destruct s_ok as (_ & _ & U).
    pose proof Q_upper as QU. rewrite E. apply Rabs_le_between in Hd.
    apply Rmult_le_reg_l with (B2R s); [exact Sp|]. rewrite <- Rmult_assoc, Rinv_r, Rmult_1_l by lra.
    apply Rle_trans with (1 - t); [|lra].
    assert (H1 : B2R s <= (1 + 2 * t) * ((1 + 2 * t) * (1 + 4 * t))).
    { eapply Rle_trans; [exact U|]. apply Rmult_le_compat_l; [lra|]. apply Rmult_le_compat_l; lra. }
    apply Rle_trans with ((1 + 2 * t) * ((1 + 2 * t) * (1 + 4 * t)) * (1 - 9 * t)); [apply Rmult_le_compat_r; lra|].
    assert (0 <= t * t) by (apply Rmult_le_pos; lra). assert (0 <= t * t * t) by (apply Rmult_le_pos; lra).
    assert (0 <= t * t * t * t) by (apply Rmult_le_pos; lra). lra.
  Qed.

  Lemma ess_upper : B2R ess <= n * (1 + 20 * t).
  Proof.
    destruct ess_ok as (_ & d & Hd & E). pose proof s_pos as Sp. pose proof t_range as T. destruct s_ok as (_ & L & _).
    pose proof Q_lower as QL. pose proof en_ge_1 as N. rewrite E. apply Rabs_le_between in Hd.
    apply Rmult_le_reg_l with (B2R s); [exact Sp|]. rewrite <- Rmult_assoc, Rinv_r, Rmult_1_l by lra.
    apply Rle_trans with (1 + t); [lra|].
    apply Rle_trans with ((1 - 2 * t) * ((1 - 2 * t) * Q) * (n * (1 + 20 * t))).
    - replace ((1 - 2 * t) * ((1 - 2 * t) * Q) * (n * (1 + 20 * t))) with ((1 - 2 * t) * (1 - 2 * t) * (1 + 20 * t) * (n * Q)) by ring.
      apply Rle_trans with ((1 - 2 * t) * (1 - 2 * t) * (1 + 20 * t) * ((1 - 4 * t) * (1 - 4 * t))).
      + assert (A : 1 - 12 * t <= (1 - 2 * t) * (1 - 2 * t) * ((1 - 4 * t) * (1 - 4 * t))).
        { replace ((1 - 2 * t) * (1 - 2 * t) * ((1 - 4 * t) * (1 - 4 * t))) with ((1 - 6 * t + 8 * (t * t)) * (1 - 6 * t + 8 * (t * t))) by ring.
          assert (0 <= t * t) by (apply Rmult_le_pos; lra).
          apply Rle_trans with ((1 - 6 * t) * (1 - 6 * t)); [lra|apply Rmult_le_compat; lra]. }
        apply Rle_trans with ((1 + 20 * t) * (1 - 12 * t)).
        * assert (0 <= t * (/ 64 - t)) by (apply Rmult_le_pos; lra). lra.
        * replace ((1 - 2 * t) * (1 - 2 * t) * (1 + 20 * t) * ((1 - 4 * t) * (1 - 4 * t))) with
            ((1 + 20 * t) * ((1 - 2 * t) * (1 - 2 * t) * ((1 - 4 * t) * (1 - 4 * t)))) by ring. apply Rmult_le_compat_l; lra.
      + apply Rmult_le_compat_l; [|exact QL]. apply Rmult_le_pos; [apply Rmult_le_pos; lra|lra].
    - apply Rmult_le_compat_r; [|exact L]. apply Rmult_le_pos; lra.
  Qed.

  (** The reciprocal of the result is the sum of squares, with a small relative error. *)
  Lemma ess_accurate : Rabs (/ B2R ess - Q) <= 7 * t * Q.
  Proof.
    destruct ess_ok as (_ & d & Hd & E). pose proof s_pos as Sp. pose proof t_range as T. destruct s_ok as (_ & L & U).
    pose proof Q_upper as QU. rewrite E. apply Rabs_le_between in Hd.
    replace (/ (/ B2R s * (1 + d))) with (B2R s * / (1 + d)) by (field; lra).
    assert (D1 : 1 - t <= / (1 + d)).
    { apply Rmult_le_reg_r with (1 + d); [lra|]. rewrite Rinv_l by lra.
      destruct (Rle_or_lt 0 d); [|assert (0 <= (1 - t) * - d) by (apply Rmult_le_pos; lra); lra].
      assert ((1 - t) * (1 + d) <= (1 - t) * (1 + t)) by (apply Rmult_le_compat_l; lra). assert (0 <= t * t) by (apply Rmult_le_pos; lra). lra. }
    assert (D2 : / (1 + d) <= 1 + 2 * t).
    { apply Rmult_le_reg_r with (1 + d); [lra|]. rewrite Rinv_l by lra.
      assert ((1 + 2 * t) * (1 - t) <= (1 + 2 * t) * (1 + d)) by (apply Rmult_le_compat_l; lra).
      assert (0 <= t * (/ 64 - t)) by (apply Rmult_le_pos; lra). lra. }
    assert (0 <= t * (/ 64 - t)) by (apply Rmult_le_pos; lra). assert (0 <= t * t) by (apply Rmult_le_pos; lra).
    apply Rabs_le. split.
    - assert (H1 : (1 - 2 * t) * ((1 - 2 * t) * Q) * (1 - t) <= B2R s * / (1 + d)).
      { apply Rmult_le_compat; [|lra|exact L|exact D1]. apply Rmult_le_pos; [lra|apply Rmult_le_pos; lra]. }
      assert (H2 : (1 - 5 * t) * Q <= (1 - 2 * t) * (1 - 2 * t) * (1 - t) * Q).
      { apply Rmult_le_compat_r; [lra|]. assert (0 <= t * t * (2 - t)) by (apply Rmult_le_pos; lra). lra. }
      assert (0 <= t * Q) by (apply Rmult_le_pos; lra). lra.
    - assert (H1 : B2R s * / (1 + d) <= (1 + 2 * t) * ((1 + 2 * t) * Q) * (1 + 2 * t)).
      { apply Rmult_le_compat; [lra|left; apply Rinv_0_lt_compat; lra|exact U|exact D2]. }
      assert (H2 : (1 + 2 * t) * (1 + 2 * t) * (1 + 2 * t) * Q <= (1 + 7 * t) * Q).
      { apply Rmult_le_compat_r; [lra|]. assert (t * t * t <= t * t * / 64) by (apply Rmult_le_compat_l; lra). lra. }
      lra.
  Qed.
End Ess.

(** Sums of squares of nearby lists. *)
Lemma squares_near {A} (f g : A -> R) c l : (forall x, In x l -> 0 <= f x /\ 0 <= g x /\ Rabs (f x - g x) <= c) ->
  Rabs (Rsum (map (fun x => f x * f x) l) - Rsum (map (fun x => g x * g x) l)) <= c * (Rsum (map f l) + Rsum (map g l)).
Proof.
  unfold Rsum. induction l as [|a l IH]; intros H; simpl map; simpl fold_right.
  - rewrite Rminus_0_r, Rabs_R0. lra.
  - specialize (IH ltac:(intros; apply H; now right)). destruct (H a (or_introl eq_refl)) as (P1 & P2 & P3).
    set (X := fold_right Rplus 0 (map (fun x => f x * f x) l)) in *. set (Y := fold_right Rplus 0 (map (fun x => g x * g x) l)) in *.
    replace (f a * f a + X - (g a * g a + Y)) with ((f a - g a) * (f a + g a) + (X - Y)) by ring.
    eapply Rle_trans; [apply Rabs_triang|]. rewrite Rabs_mult, (Rabs_pos_eq (f a + g a)) by lra.
    assert (Rabs (f a - g a) * (f a + g a) <= c * (f a + g a)) by (apply Rmult_le_compat_r; lra). lra.
Qed.
