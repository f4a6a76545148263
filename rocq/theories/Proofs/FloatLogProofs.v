(** log_likelihood in floating point arithmetic. *)
From Coq Require Import ZArith Reals List Bool Lia Lra Permutation.
From Flocq Require Import Core.Core IEEE754.BinarySingleNaN.
From Flocq.Prop Require Import Relative.
From Coquelicot Require Import Rcomplements.
From Verif.Model Require Import Base FloatResampling FloatLikelihood.
From Verif.Spec Require Import WeightsSpec FloatSpec FloatLogSpec.
From Verif.Proofs Require Import FloatProofs FloatNormalize FloatSystematic.
Import ListNotations.
Open Scope R_scope.

Lemma sum_errors {A} (f g h : A -> R) l : (forall x, In x l -> Rabs (f x - g x) <= h x) ->
  Rabs (Rsum (map f l) - Rsum (map g l)) <= Rsum (map h l).
Proof.
  unfold Rsum. induction l as [|a l IH]; intros H; cbn [map fold_right].
  - rewrite Rminus_0_r, Rabs_R0. lra.
  - pose proof (H a (or_introl eq_refl)) as Ha. specialize (IH ltac:(intros; apply H; now right)).
    apply Rabs_le_between in Ha. apply Rabs_le_between in IH. apply Rabs_le. lra.
Qed.
Lemma sum_mono {A} (f g : A -> R) l : (forall x, In x l -> f x <= g x) -> Rsum (map f l) <= Rsum (map g l).
Proof.
  unfold Rsum. induction l as [|a l IH]; intros H; cbn [map fold_right]; [lra|].
  pose proof (H a (or_introl eq_refl)). specialize (IH ltac:(intros; apply H; now right)). lra.
Qed.
Lemma sum_affine {A} (f g : A -> R) a b c l :
  Rsum (map (fun x => a * f x + b * g x + c) l) = a * Rsum (map f l) + b * Rsum (map g l) + INR (length l) * c.
Proof.
  unfold Rsum. induction l as [|x l IH]; cbn [map fold_right length]; [simpl; lra|]. rewrite IH, S_INR. lra.
Qed.
Lemma sum_scale {A} (f : A -> R) c l : Rsum (map (fun x => c * f x) l) = c * Rsum (map f l).
Proof. unfold Rsum. induction l as [|x l IH]; cbn [map fold_right]; [lra|]. rewrite IH. lra. Qed.

Lemma ln_gap a b d : 0 < b -> Rabs (a - b) <= d -> 2 * d <= b -> Rabs (ln a - ln b) <= 2 * d / b.
Proof.
  intros Hb H Hd. apply Rabs_le_between in H. assert (Pa : 0 < a) by lra.
  assert (Hln : forall x, 0 < x -> ln x <= x - 1).
  { intros x Hx. pose proof (exp_ineq1_le (ln x)) as E. rewrite exp_ln in E by exact Hx. lra. }
  assert (H1 : ln a - ln b <= (a - b) / b).
  { rewrite <- ln_div by lra. eapply Rle_trans; [apply Hln; now apply Rdiv_lt_0_compat|]. right. field. lra. }
  assert (H2 : ln b - ln a <= (b - a) / a).
  { rewrite <- ln_div by lra. eapply Rle_trans; [apply Hln; now apply Rdiv_lt_0_compat|]. right. field. lra. }
  apply Rabs_le. split.
  - assert ((b - a) / a <= 2 * d / b); [|lra]. apply Rle_div_l; [lra|].
    apply Rle_trans with d; [lra|]. replace (2 * d / b * a) with (d * (2 * a / b)) by (field; lra).
    rewrite <- (Rmult_1_r d) at 1. apply Rmult_le_compat_l; [lra|]. apply Rle_div_r; lra.
  - eapply Rle_trans; [exact H1|]. unfold Rdiv. apply Rmult_le_compat_r; [left; now apply Rinv_0_lt_compat|lra].
Qed.

Section Core.
  Context {prec emax : Z} {Hp : Prec_gt_0 prec} {He : Prec_lt_emax prec emax}.
  Notation float := (binary_float prec emax).
  Notation rnd := (@FloatProofs.rnd prec emax).
  Notation eps := (@FloatProofs.eps prec).
  Notation emin := (SpecFloat.emin prec emax).
  Notation bpow := (bpow radix2).
  Notation ninf := (B754_infinity true : float).
  Hypothesis Hwide : (prec + 3 <= emax)%Z.
  Variables (fexp flog : float -> float) (fsum : list float -> float) (alpha beta : R).
  Hypothesis Hexp : exponential alpha fexp.
  Hypothesis Hlog : logarithm beta flog.
  Hypothesis Hbeta : 0 <= beta <= 1.
  Hypothesis Hsum : adds_up fsum.
  Variables (w iw : list float).
  Hypothesis Hlen : length w = length iw.
  Hypothesis Hw : forall c, In c w -> unit_interval c.
  Hypothesis Hiw : forall x, In x iw -> low x.
  Hypothesis Husable : exists x, In x iw /\ is_finite x = true.
  Hypothesis Hsmall : INR (length iw) * eps <= / 64.
  Hypothesis Htotal : Rsum (map B2R w) <= 2.

  Let n : R := INR (length iw).
  Definition top : float := fmaxl iw.
  Definition ex (x : float) : float := fexp (fsub x top).
  Definition devi (x : float) : R := match x with B754_infinity true => 0 | _ => exp (B2R x - B2R top) end.
  Definition term (cx : float * float) : float := fmul (fst cx) (ex (snd cx)).
  Definition exact (cx : float * float) : R := B2R (fst cx) * devi (snd cx).
  Let ps : list (float * float) := combine w iw.
  Let T : R := Rsum (map exact ps).
  Let C : R := Rsum (map B2R w).

  Lemma top_ok : is_finite top = true /\ In top iw /\ forall x, In x iw -> is_finite x = true -> B2R x <= B2R top.
  Proof. apply fmaxl_low; assumption. Qed.

  Lemma devi_range x : In x iw -> 0 <= devi x <= 1.
  Proof.
    intros Hx. destruct top_ok as (Ft & _ & Hm). destruct (Hiw x Hx) as [F| ->]; [|simpl; lra].
    specialize (Hm x Hx F). assert (E : devi x = exp (B2R x - B2R top)) by (destruct x as [s|[|]| |s m e Hb]; try discriminate F; reflexivity).
    rewrite E. split; [left; apply exp_pos|]. rewrite <- exp_0. destruct (Req_dec (B2R x) (B2R top)) as [->|Hne].
    - right. f_equal. ring.
    - left. apply exp_increasing. lra.
  Qed.

  Lemma ex_ok x : In x iw -> unit_interval (ex x) /\ Rabs (B2R (ex x) - devi x) <= alpha + eps.
  Proof.
    intros Hx. destruct top_ok as (Ft & _ & Hm). destruct Hexp as (_ & Ei & Fi & Hf). pose proof (eps_range (prec := prec)) as Pe.
    pose proof (Hf (B754_zero false) eq_refl ltac:(simpl; lra)) as (_ & _ & Pa). pose proof (Rabs_pos (B2R (fexp (B754_zero false)) - exp (B2R (B754_zero false : float)))) as Pa'.
    unfold ex. destruct (Hiw x Hx) as [F|E].
    - specialize (Hm x Hx F).
      assert (E : devi x = exp (B2R x - B2R top)) by (destruct x as [s|[|]| |s m e Hb]; try discriminate F; reflexivity).
      rewrite E. destruct (shift_ok x top F Ft Hm) as [(Fs & Es)|(Es & Hb)].
      + assert (Hneg : B2R (fsub x top) <= 0) by (rewrite Es; apply rnd_le_fmt; [apply fmt_0|lra]).
        destruct (Hf _ Fs Hneg) as (F1 & R1 & B1). split; [split; assumption|].
        assert (B2 : Rabs (exp (B2R (fsub x top)) - exp (B2R x - B2R top)) <= eps).
        { rewrite Es. apply exp_perturb; [lra|]. apply (rnd_plus (emax := emax) (B2R x) (- B2R top) (fmt_B2R _)). rewrite <- B2R_Bopp. apply fmt_B2R. }
        apply Rabs_le_between in B1. apply Rabs_le_between in B2. apply Rabs_le. lra.
      + rewrite Es. split; [split; [exact Fi|rewrite Ei; lra]|]. rewrite Ei.
        assert (exp (B2R x - B2R top) <= eps).
        { pose proof (bpow_gt_0 radix2 (emax - 1)). pose proof (top_eps (prec := prec) Hwide). apply Rle_trans with (exp (- bpow (emax - 1))).
          - destruct Hb as [Hb| ->]; [left; now apply exp_increasing|lra].
          - eapply Rle_trans; [now apply exp_neg_small|assumption]. }
        pose proof (exp_pos (B2R x - B2R top)). apply Rabs_le. lra.
    - subst x. rewrite shift_inf by exact Ft. split; [split; [exact Fi|rewrite Ei; lra]|]. rewrite Ei. simpl. rewrite Rminus_0_r, Rabs_R0. lra.
  Qed.

  Lemma in_ps cx : In cx ps -> In (fst cx) w /\ In (snd cx) iw.
  Proof. destruct cx as (c, x). intros H. split; [eapply in_combine_l|eapply in_combine_r]; exact H. Qed.

  Lemma term_ok cx : In cx ps -> unit_interval (term cx) /\
    Rabs (B2R (term cx) - exact cx) <= eps * exact cx + (1 + eps) * (alpha + eps) * B2R (fst cx) + / 2 * bpow emin.
  Proof.
    intros Hcx. destruct (in_ps cx Hcx) as (Hc & Hx). destruct (Hw _ Hc) as (Fc & Rc). destruct (ex_ok _ Hx) as ((Fe & Re) & Be).
    pose proof (devi_range _ Hx) as Rd. unfold term, exact. set (c := B2R (fst cx)) in *. set (t := B2R (ex (snd cx))) in *. set (d := devi (snd cx)) in *.
    assert (B : 0 <= c * t <= 1).
    { split; [apply Rmult_le_pos; lra|]. rewrite <- (Rmult_1_l 1). apply Rmult_le_compat; lra. }
    pose proof (prec_pos (prec := prec)) as Pp. pose proof (eps_range (prec := prec)) as Pe.
    destruct (fmul_ok (fst cx) (ex (snd cx)) Fc Fe) as (Fm & Em).
    { fold c t. rewrite Rabs_pos_eq by lra. apply Rle_trans with 1; [lra|]. change 1 with (bpow 0). apply bpow_le. lia. }
    fold c t in Em. split.
    - split; [exact Fm|]. rewrite Em. split; [apply rnd_nonneg; lra|]. apply rnd_le_fmt; [apply fmt_1|lra].
    - rewrite Em. destruct (relative_error_N_FLT'_ex radix2 emin prec Hp (fun x => negb (Z.even x)) (c * t)) as (dd & h & Hd & Hh & _ & E).
      change (rnd (c * t)) with (round radix2 (FLT_exp emin prec) ZnearestE (c * t)). rewrite E.
      replace (c * t * (1 + dd) + h - c * d) with (dd * (c * t) + h + c * (t - d)) by ring.
      eapply Rle_trans; [apply Rabs_triang|]. pose proof (Rabs_triang (dd * (c * t)) h) as T1.
      rewrite (Rabs_mult dd), (Rabs_pos_eq (c * t)) in T1 by lra. rewrite (Rabs_mult c), (Rabs_pos_eq c) by lra.
      assert (D1 : Rabs dd * (c * t) <= eps * (c * t)).
      { apply Rmult_le_compat_r; [lra|]. eapply Rle_trans; [exact Hd|]. rewrite u_ro_eps.
        apply Rle_div_l; [lra|]. assert (0 <= eps * eps) by (apply Rmult_le_pos; lra). lra. }
      assert (D2 : c * Rabs (t - d) <= c * (alpha + eps)) by (apply Rmult_le_compat_l; lra).
      assert (D3 : eps * (c * t) <= eps * (c * d + c * (alpha + eps))).
      { apply Rmult_le_compat_l; [lra|]. rewrite <- Rmult_plus_distr_l. apply Rmult_le_compat_l; [lra|]. apply Rabs_le_between in Be. lra. }
      lra.
  Qed.

  Lemma len_ps : length ps = length iw.
  Proof. unfold ps. rewrite combine_length, Hlen. apply Nat.min_id. Qed.
  Lemma sum_fst : Rsum (map (fun cx => B2R (fst cx)) ps) = C.
  Proof.
    unfold C, ps. clear - Hlen. unfold Rsum. revert iw Hlen. induction w as [|c l IH]; intros [|x k] H; try discriminate H; [reflexivity|].
    cbn [combine map fold_right fst]. rewrite (IH k); [reflexivity|]. now injection H.
  Qed.
  Lemma n_pos : 1 <= n.
  Proof.
    unfold n. destruct Husable as (x & Hx & _). destruct iw as [|a l]; [destruct Hx|]. simpl length. rewrite S_INR. pose proof (pos_INR (length l)). lra.
  Qed.
  Lemma small_n : eps <= n * eps <= / 64 /\ 0 < eps.
  Proof.
    pose proof n_pos. pose proof (eps_pos (prec := prec)) as Pe. split; [|exact Pe]. split; [|exact Hsmall].
    rewrite <- (Rmult_1_l eps) at 1. apply Rmult_le_compat_r; lra.
  Qed.
  Lemma n_le : n <= bpow (prec - 6).
  Proof.
    pose proof (eps_pos (prec := prec)) as Pe. apply Rmult_le_reg_r with eps; [exact Pe|]. eapply Rle_trans; [exact Hsmall|].
    unfold FloatProofs.eps. rewrite <- bpow_plus. replace (prec - 6 + - prec)%Z with (-6)%Z by ring. simpl. lra.
  Qed.
  Lemma under : n * (/ 2 * bpow emin) <= eps / 4.
  Proof.
    pose proof n_le as N. pose proof (bpow_gt_0 radix2 emin) as Pb.
    apply Rle_trans with (bpow (prec - 6) * (/ 2 * bpow emin)); [apply Rmult_le_compat_r; lra|].
    replace (bpow (prec - 6) * (/ 2 * bpow emin)) with (/ 2 * (bpow (prec - 6) * bpow emin)) by ring. rewrite <- bpow_plus.
    assert (bpow (prec - 6 + emin) <= bpow (- prec - 1)).
    { apply bpow_le. rewrite emin_eq. lia. }
    assert (E : bpow (- prec - 1) = eps * / 2) by (unfold Z.sub; rewrite bpow_plus; reflexivity). rewrite E in H. lra.
  Qed.
  Lemma T_nonneg : 0 <= T /\ T <= C.
  Proof.
    split.
    - apply Rsum_nonneg. intros x Hx. apply in_map_iff in Hx. destruct Hx as (cx & <- & Hcx). destruct (in_ps cx Hcx) as (Hc & Hx).
      apply Rmult_le_pos; [apply (Hw _ Hc)|now apply devi_range].
    - rewrite <- sum_fst. apply sum_mono. intros cx Hcx. destruct (in_ps cx Hcx) as (Hc & Hx). pose proof (devi_range _ Hx). destruct (Hw _ Hc) as (_ & R).
      unfold exact. rewrite <- (Rmult_1_r (B2R (fst cx))) at 2. apply Rmult_le_compat_l; lra.
  Qed.
  Lemma alpha_nonneg : 0 <= alpha.
  Proof.
    destruct Hexp as (_ & _ & _ & Hf). destruct (Hf (B754_zero false) eq_refl ltac:(simpl; lra)) as (_ & _ & Pa).
    eapply Rle_trans; [apply Rabs_pos|exact Pa].
  Qed.

  (** The absolute error of the sum under the logarithm. *)
  Definition delta : R := 4 * n * eps * T + 4 * alpha + 5 * eps.
  Let S : float := fsum (map term ps).

  Lemma sum_ok : is_finite S = true /\ Rabs (B2R S - T) <= delta.
  Proof.
    assert (H01 : forall x, In x (map term ps) -> unit_interval x).
    { intros x Hx. apply in_map_iff in Hx. destruct Hx as (cx & <- & Hcx). now apply term_ok. }
    pose proof n_pos as P1. pose proof small_n as ((P2 & P3) & P4). pose proof alpha_nonneg as Pa. pose proof T_nonneg as (PT & PTC).
    assert (Hn : INR (length (map term ps)) = n) by (rewrite map_length, len_ps; reflexivity).
    assert (Hbig : INR (length (map term ps)) <= bpow prec).
    { rewrite Hn. eapply Rle_trans; [apply n_le|apply bpow_le; lia]. }
    destruct (added_up_bounds _ _ (Hsum (map term ps)) H01 Hbig) as (F & _). split; [exact F|].
    pose proof (added_up_error _ _ (Hsum (map term ps)) H01 Hbig ltac:(rewrite Hn; lra)) as E1. rewrite Hn in E1. fold S in E1.
    pose proof (sum_errors (fun cx => B2R (term cx)) exact _ ps (fun cx Hcx => proj2 (term_ok cx Hcx))) as E2.
    rewrite <- map_map in E2. fold T in E2.
    rewrite (sum_affine exact (fun cx => B2R (fst cx))), sum_fst, len_ps in E2. fold T n in E2. pose proof under as U.
    set (Q := Rsum (map B2R (map term ps))) in *. fold C in Htotal.
    assert (E3 : (1 + eps) * (alpha + eps) * C <= (1 + eps) * (alpha + eps) * 2).
    { apply Rmult_le_compat_l; [apply Rmult_le_pos; lra|exact Htotal]. }
    assert (E4 : eps * (alpha + eps) <= / 64 * (alpha + eps)) by (apply Rmult_le_compat_r; lra).
    assert (E5 : Rabs (Q - T) <= eps * T + (2 + / 32) * (alpha + eps) + eps / 4) by lra.
    assert (E6 : n * eps * Q <= n * eps * (T + (eps * T + (2 + / 32) * (alpha + eps) + eps / 4))).
    { apply Rmult_le_compat_l; [lra|]. apply Rabs_le_between in E5. lra. }
    assert (E7 : n * eps * ((2 + / 32) * (alpha + eps) + eps / 4) <= / 64 * ((2 + / 32) * (alpha + eps) + eps / 4)) by (apply Rmult_le_compat_r; lra).
    assert (E8 : n * eps * (eps * T) <= / 64 * (eps * T)) by (apply Rmult_le_compat_r; [apply Rmult_le_pos; lra|lra]).
    assert (E9 : eps * T <= n * eps * T) by (apply Rmult_le_compat_r; lra).
    unfold delta. apply Rabs_le_between in E1. apply Rabs_le_between in E5. apply Rabs_le. lra.
  Qed.

  Hypothesis HT : 2 * delta <= T.
  Hypothesis Hrange : Rabs (B2R top) <= bpow (emax - 2).

  Lemma T_pos : 0 < T.
  Proof.
    pose proof small_n as ((P2 & P3) & P4). pose proof alpha_nonneg as Pa. pose proof T_nonneg as (PT & _). unfold delta in HT.
    assert (0 <= n * eps * T) by (apply Rmult_le_pos; lra). lra.
  Qed.
  Lemma lnT : Rabs (ln T) <= IZR prec.
  Proof.
    pose proof small_n as ((P2 & P3) & P4). pose proof alpha_nonneg as Pa. pose proof T_nonneg as (PT & PC). pose proof T_pos as PP. fold C in Htotal.
    assert (H1 : eps <= T).
    { unfold delta in HT. assert (0 <= n * eps * T) by (apply Rmult_le_pos; lra). lra. }
    assert (L2 : 0 < ln 2 <= 1).
    { split; [rewrite <- ln_1; apply ln_increasing; lra|]. rewrite <- (ln_exp 1). left. apply ln_increasing; [lra|]. pose proof (exp_ineq1 1 ltac:(lra)). lra. }
    assert (Pp : 1 <= IZR prec) by (apply IZR_le; pose proof (prec_pos (prec := prec)); lia).
    assert (Le : ln eps = - (IZR prec * ln 2)).
    { unfold FloatProofs.eps. rewrite bpow_exp. change (IZR radix2) with 2. rewrite ln_exp, opp_IZR. ring. }
    assert (ln eps <= ln T) by (destruct H1 as [H1|<-]; [left; now apply ln_increasing|lra]).
    assert (ln T <= ln 2).
    { destruct (Rle_lt_or_eq_dec T 2 ltac:(lra)) as [Hlt| ->]; [left; now apply ln_increasing|lra]. }
    assert (IZR prec * ln 2 <= IZR prec * 1) by (apply Rmult_le_compat_l; lra).
    apply Rabs_le. lra.
  Qed.

  Lemma core : is_finite (fadd top (flog S)) = true /\
    Rabs (B2R (fadd top (flog S)) - (B2R top + ln T)) <= eps * Rabs (B2R top + ln T) + 2 * (2 * delta / T + beta * (Rabs (ln T) + 1)).
  Proof.
    destruct sum_ok as (FS & BS). pose proof T_pos as PT. destruct top_ok as (Ft & _). pose proof lnT as LT.
    pose proof small_n as ((P2 & P3) & P4). pose proof alpha_nonneg as Pa.
    pose proof (ln_gap (B2R S) T delta PT BS HT) as G. assert (PS : 0 < B2R S) by (apply Rabs_le_between in BS; lra).
    destruct Hlog as (_ & Hl). destruct (Hl S FS PS) as (FL & BL).
    assert (G1 : 2 * delta / T <= 1) by (apply Rle_div_l; lra).
    assert (G0 : 0 <= 2 * delta / T) by (eapply Rle_trans; [apply Rabs_pos|exact G]).
    assert (LS : Rabs (ln (B2R S)) <= Rabs (ln T) + 1).
    { replace (ln (B2R S)) with (ln T + (ln (B2R S) - ln T)) by ring. eapply Rle_trans; [apply Rabs_triang|lra]. }
    assert (BL' : beta * Rabs (ln (B2R S)) <= beta * (Rabs (ln T) + 1)) by (apply Rmult_le_compat_l; lra).
    assert (D : Rabs (B2R (flog S) - ln T) <= 2 * delta / T + beta * (Rabs (ln T) + 1)).
    { replace (B2R (flog S) - ln T) with ((B2R (flog S) - ln (B2R S)) + (ln (B2R S) - ln T)) by ring. eapply Rle_trans; [apply Rabs_triang|lra]. }
    set (DD := 2 * delta / T + beta * (Rabs (ln T) + 1)) in *.
    assert (PDD : 0 <= DD) by (eapply Rle_trans; [apply Rabs_pos|exact D]).
    assert (Bn : beta * (Rabs (ln T) + 1) <= 1 * (Rabs (ln T) + 1)) by (apply Rmult_le_compat_r; [pose proof (Rabs_pos (ln T)); lra|lra]).
    assert (Pp : IZR prec + 1 <= bpow prec).
    { replace prec with (Z.of_nat (Z.to_nat prec)) by (pose proof (prec_pos (prec := prec)); lia).
      generalize (Z.to_nat prec). intros k. induction k as [|k IH]; [simpl; lra|].
      rewrite Nat2Z.inj_succ. unfold Z.succ. rewrite plus_IZR, bpow_plus. change (bpow 1) with 2.
      assert (0 <= IZR (Z.of_nat k)) by (apply IZR_le; lia). lra. }
    assert (Ov : Rabs (B2R (flog S)) <= bpow (emax - 2)).
    { apply Rle_trans with (2 * bpow prec).
      - replace (B2R (flog S)) with (ln T + (B2R (flog S) - ln T)) by ring. eapply Rle_trans; [apply Rabs_triang|]. unfold DD in D. lra.
      - change 2 with (bpow 1). rewrite <- bpow_plus. apply bpow_le. lia. }
    assert (Ov2 : Rabs (B2R top + B2R (flog S)) <= bpow (emax - 1)).
    { eapply Rle_trans; [apply Rabs_triang|]. replace (emax - 1)%Z with ((emax - 2) + 1)%Z by ring. rewrite bpow_plus. change (bpow 1) with 2. lra. }
    destruct (fadd_ok top (flog S) Ft FL Ov2) as (Fr & Er). split; [exact Fr|]. rewrite Er.
    pose proof (rnd_plus (emax := emax) (B2R top) (B2R (flog S)) (fmt_B2R _) (fmt_B2R _)) as Rr.
    replace (B2R top + B2R (flog S)) with ((B2R top + ln T) + (B2R (flog S) - ln T)) in Rr at 3 by ring.
    assert (R2 : eps * Rabs ((B2R top + ln T) + (B2R (flog S) - ln T)) <= eps * (Rabs (B2R top + ln T) + DD)).
    { apply Rmult_le_compat_l; [lra|]. eapply Rle_trans; [apply Rabs_triang|lra]. }
    assert (R3 : eps * DD <= 1 * DD) by (apply Rmult_le_compat_r; lra).
    replace (rnd (B2R top + B2R (flog S)) - (B2R top + ln T)) with
      ((rnd (B2R top + B2R (flog S)) - (B2R top + B2R (flog S))) + (B2R (flog S) - ln T)) by ring.
    eapply Rle_trans; [apply Rabs_triang|]. lra.
  Qed.
End Core.

Section Correctly_rounded.
  Context {prec emax : Z} {Hp : Prec_gt_0 prec} {He : Prec_lt_emax prec emax}.
  Notation float := (binary_float prec emax).
  Notation fe := (SpecFloat.fexp prec emax).
  Notation emin := (SpecFloat.emin prec emax).
  Notation rnd := (@FloatProofs.rnd prec emax).
  Notation fmt := (@FloatProofs.fmt prec emax).
  Notation eps := (@FloatProofs.eps prec).
  Notation bpow := (bpow radix2).
  Hypothesis Hwide : (prec + 3 <= emax)%Z.

  (** A correctly rounded logarithm. *)
  Definition rounded_log (x : float) : float :=
    match x with
    | B754_zero _ => B754_infinity true
    | B754_finite false _ _ _ =>
        let y := ln (B2R x) in
        binary_normalize prec emax Hp He mode_NE (ZnearestE (scaled_mantissa radix2 fe y)) (cexp radix2 fe y) false
    | B754_infinity false => x
    | _ => B754_nan
    end.

  Lemma away_from_1 x : fmt x -> x <> 1 -> x <= 1 - bpow (- prec) \/ 1 + bpow (1 - prec) <= x.
  Proof.
    intros Fx Hx. pose proof (prec_pos (prec := prec)) as Pp. pose proof (FloatProofs.emin_eq (prec := prec) (emax := emax)) as Em.
    assert (V : Valid_exp fe) by apply FloatProofs.fe_valid.
    destruct (Rlt_or_le x 1) as [H|H].
    - left. assert (E : pred radix2 fe (bpow 0) = bpow 0 - bpow (fe 0)).
      { apply pred_bpow. }
      rewrite FloatProofs.fe_eq in E. replace (Z.max (0 - prec) emin) with (- prec)%Z in E by (rewrite Em; lia).
      change (bpow 0) with 1 in E. rewrite <- E. apply pred_ge_gt; try assumption. apply (fmt_1 (prec := prec) (emax := emax)).
    - right. assert (H1 : 1 < x) by lra.
      assert (E : succ radix2 fe 1 = 1 + bpow (1 - prec)).
      { rewrite succ_eq_pos by lra. f_equal. change 1 with (bpow 0) at 1. rewrite ulp_bpow. rewrite FloatProofs.fe_eq.
        f_equal. rewrite Em. lia. }
      rewrite <- E. apply succ_le_lt; try assumption. apply (fmt_1 (prec := prec) (emax := emax)).
  Qed.

  Lemma ln_away x : fmt x -> 0 < x -> x <> 1 -> bpow (emin + prec - 1) <= Rabs (ln x).
  Proof.
    intros Fx Px Hx. apply Rle_trans with (bpow (- prec - 1)).
    { apply bpow_le. rewrite FloatProofs.emin_eq. lia. }
    assert (Hln : forall y, 0 < y -> ln y <= y - 1).
    { intros y Hy. pose proof (exp_ineq1_le (ln y)) as E. rewrite exp_ln in E by exact Hy. lra. }
    assert (E : bpow (- prec - 1) = eps * / 2) by (unfold Z.sub; rewrite bpow_plus; reflexivity). rewrite E.
    pose proof (eps_range (prec := prec)) as Pe. pose proof (eps_pos (prec := prec)) as Pe'.
    destruct (away_from_1 x Fx Hx) as [H|H].
    - change (bpow (- prec)) with eps in H. pose proof (Hln x Px). rewrite Rabs_left1 by lra. lra.
    - assert (E2 : bpow (1 - prec) = 2 * eps) by (unfold Z.sub; rewrite bpow_plus; reflexivity). rewrite E2 in H.
      assert (H1 : 1 - / x <= ln x).
      { pose proof (Hln (/ x) (Rinv_0_lt_compat _ Px)). rewrite ln_Rinv in H0 by exact Px. lra. }
      assert (H2 : / x <= / (1 + 2 * eps)) by (apply Rinv_le_contravar; lra).
      assert (H3 : / (1 + 2 * eps) <= 1 - eps).
      { apply Rmult_le_reg_l with (1 + 2 * eps); [lra|]. rewrite Rinv_r by lra.
        assert (eps * eps <= / 2 * eps) by (apply Rmult_le_compat_r; lra). lra. }
      rewrite Rabs_pos_eq by lra. lra.
  Qed.

  Lemma ln_bound (x : float) : is_finite x = true -> 0 < B2R x -> Rabs (ln (B2R x)) <= bpow (emax - 1).
  Proof.
    intros F Px. pose proof (prec_pos (prec := prec)) as Pp.
    assert (L2 : 0 < ln 2 <= 1).
    { split; [rewrite <- ln_1; apply ln_increasing; lra|]. rewrite <- (ln_exp 1). left. apply ln_increasing; [lra|]. pose proof (exp_ineq1 1 ltac:(lra)). lra. }
    assert (Lb : forall k, ln (bpow k) = IZR k * ln 2) by (intros k; rewrite bpow_exp; change (IZR radix2) with 2; apply ln_exp).
    assert (U : ln (B2R x) <= IZR emax).
    { pose proof (abs_B2R_lt_emax prec emax x) as B. rewrite Rabs_pos_eq in B by lra.
      apply Rle_trans with (ln (bpow emax)); [left; now apply ln_increasing|]. rewrite Lb.
      rewrite <- (Rmult_1_r (IZR emax)) at 2. apply Rmult_le_compat_l; [apply IZR_le; lia|lra]. }
    assert (D : IZR emin <= ln (B2R x)).
    { assert (B : bpow emin <= B2R x).
      { destruct x as [s|s| |s m e Hb]; try discriminate F; [simpl in Px; lra|].
        pose proof (abs_B2R_ge_emin prec emax (B754_finite s m e Hb) eq_refl) as B. rewrite Rabs_pos_eq in B by lra. exact B. }
      apply Rle_trans with (ln (bpow emin)).
      - rewrite Lb. rewrite FloatProofs.emin_eq. replace (IZR (3 - emax - prec)) with (- IZR (emax + prec - 3)) by (rewrite <- opp_IZR; f_equal; ring).
        assert (0 <= IZR (emax + prec - 3)) by (apply IZR_le; lia).
        assert (IZR (emax + prec - 3) * ln 2 <= IZR (emax + prec - 3) * 1) by (apply Rmult_le_compat_l; lra). lra.
      - destruct B as [B| ->]; [left; apply ln_increasing; [apply bpow_gt_0|exact B]|lra]. }
    assert (P2 : forall k, IZR (Z.of_nat k) + 1 <= bpow (Z.of_nat k)).
    { intros k. induction k as [|k IH]; [simpl; lra|]. rewrite Nat2Z.inj_succ. unfold Z.succ. rewrite plus_IZR, bpow_plus. change (bpow 1) with 2.
      assert (0 <= IZR (Z.of_nat k)) by (apply IZR_le; lia). lra. }
    specialize (P2 (Z.to_nat (emax - 2))). rewrite Z2Nat.id in P2 by lia.
    assert (E : bpow (emax - 1) = 2 * bpow (emax - 2)).
    { replace (emax - 1)%Z with (1 + (emax - 2))%Z by ring. rewrite bpow_plus. reflexivity. }
    rewrite E. rewrite FloatProofs.emin_eq in D. rewrite !minus_IZR in *. assert (IZR prec + 3 <= IZR emax) by (rewrite <- plus_IZR; apply IZR_le; lia).
    assert (1 <= IZR prec) by (apply IZR_le; lia). apply Rabs_le. lra.
  Qed.

  Lemma rounded_log_ok : logarithm eps rounded_log.
  Proof.
    split; [reflexivity|]. intros x F Px. pose proof (eps_range (prec := prec)) as Pe. pose proof (eps_pos (prec := prec)) as Pe'.
    assert (E : is_finite (rounded_log x) = true /\ B2R (rounded_log x) = rnd (ln (B2R x))).
    { pose proof (ln_bound x F Px) as Bd.
      destruct x as [s|s| |s m e Hb]; try discriminate F; [simpl in Px; lra|]. destruct s.
      { exfalso. pose proof (F2R_lt_0 radix2 (Float radix2 (Z.neg m) e) ltac:(reflexivity)) as N. simpl in Px.
        change (Z.neg m) with (- Z.pos m)%Z in N. simpl in N. lra. }
      cbn [rounded_log]. set (x := B754_finite false m e Hb) in *. cbv zeta.
      pose proof (binary_normalize_correct prec emax Hp He mode_NE (ZnearestE (scaled_mantissa radix2 fe (ln (B2R x)))) (cexp radix2 fe (ln (B2R x))) false) as C.
      cbv zeta in C.
      change (F2R (Float radix2 (ZnearestE (scaled_mantissa radix2 fe (ln (B2R x)))) (cexp radix2 fe (ln (B2R x))))) with (rnd (ln (B2R x))) in C.
      change (round radix2 (SpecFloat.fexp prec emax) (round_mode mode_NE) (rnd (ln (B2R x)))) with (rnd (rnd (ln (B2R x)))) in C.
      rewrite (rnd_id (rnd (ln (B2R x)))) in C by apply fmt_rnd.
      rewrite no_overflow in C by exact Bd. destruct C as (C1 & C2 & _). split; assumption. }
    destruct E as (E1 & E2). split; [exact E1|]. rewrite E2.
    destruct (Req_dec (B2R x) 1) as [->|Hne].
    - rewrite ln_1, rnd_0, Rminus_0_r, Rabs_R0. lra.
    - destruct (rnd_relative (emax := emax) (ln (B2R x))) as (d & Hd & ->); [apply ln_away; [apply fmt_B2R|exact Px|exact Hne]|].
      replace (ln (B2R x) * (1 + d) - ln (B2R x)) with (d * ln (B2R x)) by ring. rewrite Rabs_mult. apply Rmult_le_compat_r; [apply Rabs_pos|].
      eapply Rle_trans; [exact Hd|]. apply Rle_div_l; [lra|]. assert (0 <= eps * eps) by (apply Rmult_le_pos; lra). lra.
  Qed.
End Correctly_rounded.
