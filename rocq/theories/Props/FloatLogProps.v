(** C110: log_likelihood in floating point arithmetic. *)
From Coq Require Import ZArith Reals List Bool Lia Lra.
From Flocq Require Import Core.Core IEEE754.BinarySingleNaN.
From Coquelicot Require Import Rcomplements.
From Verif.Model Require Import Base FloatResampling FloatLikelihood.
From Verif.Spec Require Import WeightsSpec FloatSpec FloatLogSpec.
From Verif.Proofs Require Import FloatProofs FloatSystematic FloatNormalize FloatExamples FloatLogProofs.
Import ListNotations.
Open Scope R_scope.

#[local] Instance p24 : Prec_gt_0 24 := eq_refl.
#[local] Instance e24 : Prec_lt_emax 24 128 := eq_refl.
#[local] Instance p53 : Prec_gt_0 53 := eq_refl.
#[local] Instance e53 : Prec_lt_emax 53 1024 := eq_refl.
Notation f32 := (binary_float 24 128).

Section Shares.
  Context {prec emax : Z} {Hp : Prec_gt_0 prec} {He : Prec_lt_emax prec emax}.
  Notation float := (binary_float prec emax).

  Lemma importance_devi (iw : list float) x : number_or_ninf x -> importance x = exp (B2R (top iw)) * devi iw x.
  Proof.
    intros [F|E]; [|subst x; simpl; ring]. destruct x as [s|[|]| |s m e Hb]; try discriminate F; unfold importance, devi;
      rewrite <- exp_plus; f_equal; ring.
  Qed.
  Lemma weighted_share (w iw : list float) : (forall x, In x iw -> number_or_ninf x) ->
    weighted w iw = exp (B2R (top iw)) * Rsum (map (exact iw) (combine w iw)).
  Proof.
    intros H. unfold weighted. rewrite <- sum_scale. f_equal. apply map_ext_in. intros (c, x) Hx. unfold exact. cbn [fst snd].
    rewrite (importance_devi iw) by (apply H; eapply in_combine_r; exact Hx). ring.
  Qed.
  Lemma largest_top (iw : list float) m : (forall x, In x iw -> number_or_ninf x) -> largest m iw ->
    is_finite (top iw) = true /\ In (top iw) iw /\ B2R (top iw) = B2R m.
  Proof.
    intros H (Fm & Im & Hm). destruct (fmaxl_low iw H (ex_intro _ m (conj Im Fm))) as (Ft & It & Ht). fold (top iw) in *.
    split; [exact Ft|]. split; [exact It|]. apply Rle_antisym; [now apply Hm|now apply Ht].
  Qed.
  Lemma combine_map_r {A B C} (f : B -> C) (a : list A) (b : list B) : combine a (map f b) = map (fun p => (fst p, f (snd p))) (combine a b).
  Proof. revert b. induction a as [|x a IH]; intros [|y b]; simpl; [reflexivity..|]. now rewrite IH. Qed.
  Lemma map_repeat_combine {A B C} (f : A -> B -> C) a (l : list B) : map (f a) l = map (fun p => f (fst p) (snd p)) (combine (repeat a (length l)) l).
  Proof. induction l as [|x l IH]; simpl; [reflexivity|]. now rewrite IH. Qed.
  Lemma sum_repeat c k : Rsum (repeat c k) = INR k * c.
  Proof. unfold Rsum. induction k as [|k IH]; [simpl; ring|]. rewrite S_INR. simpl repeat. simpl fold_right. rewrite IH. ring. Qed.
End Shares.

(** C110.  Importance weights given by their logarithms (numbers or -inf), each with a weight of its particle: if what
    they add up to, relative to the largest importance weight, stands out from the rounding errors, the log-likelihood
    is the logarithm of their weighted mean, up to the accuracy of exp, log and of the dtype. *)
Theorem C110_log_likelihood_floats :
  forall (prec emax prec' emax' : Z) (Hp : Prec_gt_0 prec) (He : Prec_lt_emax prec emax)
         (Hp' : Prec_gt_0 prec') (He' : Prec_lt_emax prec' emax')
         (fexp flog : binary_float prec emax -> binary_float prec emax) fsum alpha beta w iw m,
    (prec + 3 <= emax)%Z -> exponential alpha fexp -> logarithm beta flog -> 0 <= beta <= 1 -> adds_up fsum ->
    length w = length iw -> (forall c, In c w -> is_finite c = true /\ 0 <= B2R c <= 1) -> Rsum (map B2R w) <= 2 ->
    (forall x, In x iw -> number_or_ninf x) -> largest m iw -> Rabs (B2R m) <= bpow radix2 (emax - 2) ->
    let n := INR (length iw) in let u := bpow radix2 (- prec) in
    let exact := weighted w iw in let share := exact / exp (B2R m) in
    n * u <= / 64 -> 0 < exact -> 8 * n * u + (8 * alpha + 10 * u) / share <= 1 ->
    exists r, log_likelihood prec' emax' fexp flog fsum iw (Some w) = Ok r /\ is_finite r = true /\
      Rabs (B2R r - ln exact) <=
        u * Rabs (ln exact) + 2 * (8 * n * u + (8 * alpha + 10 * u) / share + beta * (Rabs (ln share) + 1)).
Proof.
  intros prec emax prec' emax' Hp He Hp' He' fexp flog fsum alpha beta w iw m Hwide Hexp Hlog Hb Hsum Hlen Hw Hs Hiw Hm Hr n u exa share Hn Hpos Hrel.
  destruct (largest_top iw m Hiw Hm) as (Ft & It & Et). rewrite <- Et in Hr.
  assert (Hus : exists x, In x iw /\ is_finite x = true) by (exists (top iw); now split).
  set (T := Rsum (map (exact iw) (combine w iw))).
  assert (Ee : exa = exp (B2R (top iw)) * T) by now apply weighted_share.
  pose proof (exp_pos (B2R (top iw))) as Px.
  assert (Es : share = T) by (unfold share; rewrite Ee, Et; field; rewrite <- Et; lra).
  assert (PT : 0 < T) by (rewrite Ee in Hpos; apply Rmult_lt_reg_l with (exp (B2R (top iw))); lra).
  rewrite Es in *.
  assert (Hd : 2 * delta alpha w iw = (8 * n * u + (8 * alpha + 10 * u) / T) * T).
  { unfold delta. change (@FloatProofs.eps prec) with u. fold T n. field. lra. }
  assert (HT : 2 * delta alpha w iw <= T).
  { rewrite Hd. rewrite <- (Rmult_1_l T) at 3. apply Rmult_le_compat_r; lra. }
  destruct (core Hwide fexp flog fsum alpha beta Hexp Hlog Hb Hsum w iw Hlen Hw Hiw Hus Hn Hs HT Hr) as (F & B).
  exists (fadd (top iw) (flog (fsum (map (term fexp iw) (combine w iw))))). split; [|split; [exact F|]].
  - unfold log_likelihood. destruct iw as [|a l]; [destruct It|]. cbv zeta. rewrite combine_map_r, map_map. reflexivity.
  - fold T in B. change (@FloatProofs.eps prec) with u in B.
    assert (El : ln exa = B2R (top iw) + ln T) by (rewrite Ee, ln_mult, ln_exp by assumption; reflexivity). rewrite El.
    replace (2 * delta alpha w iw / T) with (8 * n * u + (8 * alpha + 10 * u) / T) in B by (rewrite Hd; field; lra).
    exact B.
Qed.
Print Assumptions C110_log_likelihood_floats.

(** The same without weights (the mean of the importance weights, APF and after resampling): no assumption on the
    importance weights other than their range. *)
Theorem C110_unweighted_floats :
  forall (prec emax prec' emax' : Z) (Hp : Prec_gt_0 prec) (He : Prec_lt_emax prec emax)
         (Hp' : Prec_gt_0 prec') (He' : Prec_lt_emax prec' emax')
         (fexp flog : binary_float prec emax -> binary_float prec emax) fsum alpha beta iw m,
    (prec + 3 <= emax)%Z -> (prec <= prec')%Z -> (emax <= emax')%Z ->
    exponential alpha fexp -> logarithm beta flog -> 0 <= beta <= 1 -> adds_up fsum ->
    (forall x, In x iw -> number_or_ninf x) -> largest m iw -> Rabs (B2R m) <= bpow radix2 (emax - 2) ->
    let n := INR (length iw) in let u := bpow radix2 (- prec) in
    let exact := Rsum (map importance iw) / n in
    n * u <= / 64 -> n * (9 * alpha + 19 * u) <= 1 ->
    exists r, log_likelihood prec' emax' fexp flog fsum iw None = Ok r /\ is_finite r = true /\
      Rabs (B2R r - ln exact) <= u * Rabs (ln exact) + n * (18 * alpha + 45 * u) + 2 * beta * (ln n + 2).
Proof.
  intros prec emax prec' emax' Hp He Hp' He' fexp flog fsum alpha beta iw m Hwide Hpp Hee Hexp Hlog Hb Hsum Hiw Hm Hr n u exa Hn Hrel.
  assert (Pn : 1 <= n).
  { unfold n. destruct Hm as (_ & Im & _). destruct iw as [|a l]; [destruct Im|]. simpl length. rewrite S_INR. pose proof (pos_INR (length l)). lra. }
  assert (Pu : 0 < u) by apply bpow_gt_0. assert (Pp : (0 < prec)%Z) by exact Hp.
  assert (Hu : u <= / 64) by (apply Rle_trans with (n * u); [rewrite <- (Rmult_1_l u) at 1; apply Rmult_le_compat_r; lra|exact Hn]).
  assert (Pa : 0 <= alpha).
  { destruct Hexp as (_ & _ & _ & Hf). destruct (Hf (B754_zero false) eq_refl ltac:(simpl; lra)) as (_ & _ & Pa).
    eapply Rle_trans; [apply Rabs_pos|exact Pa]. }
  assert (Nb : n <= bpow radix2 (prec - 6)).
  { apply Rmult_le_reg_r with u; [exact Pu|]. eapply Rle_trans; [exact Hn|].
    unfold u. rewrite <- bpow_plus. replace (prec - 6 + - prec)%Z with (-6)%Z by ring. simpl. lra. }
  (* the weight 1 / n *)
  set (c := uniform_weight prec' emax' (length iw) : binary_float prec emax).
  assert (Hnb' : n <= bpow radix2 prec') by (eapply Rle_trans; [exact Nb|apply bpow_le; lia]).
  assert (En : is_finite (of_nat (length iw) : binary_float prec' emax') = true /\ B2R (of_nat (length iw) : binary_float prec' emax') = n).
  { destruct (of_nat_ok (prec := prec') (emax := emax') (length iw)) as (F & E).
    - fold n. eapply Rle_trans; [exact Hnb'|apply bpow_le]. pose proof (FloatProofs.prec_emax (prec := prec') (emax := emax')). lia.
    - split; [exact F|]. rewrite E. fold n. apply rnd_id. unfold n. apply fmt_nat. exact Hnb'. }
  assert (In1 : 0 < / n <= 1).
  { split; [apply Rinv_0_lt_compat; lra|]. rewrite <- Rinv_1. apply Rinv_le_contravar; lra. }
  assert (Inb : bpow radix2 (6 - prec) <= / n).
  { replace (6 - prec)%Z with (- (prec - 6))%Z by ring. rewrite bpow_opp. apply Rinv_le_contravar; [lra|exact Nb]. }
  destruct (fdiv_ok (prec := prec') (emax := emax') Bone (of_nat (length iw)) (Bone_F (prec := prec') (emax := emax'))) as (Fd & Ed).
  { rewrite (proj2 En). lra. }
  { rewrite (proj2 En), Bone_R. unfold Rdiv. rewrite Rmult_1_l, Rabs_pos_eq by lra. apply Rle_trans with 1; [lra|].
    change 1 with (bpow radix2 0). apply bpow_le. lia. }
  rewrite (proj2 En), Bone_R in Ed. unfold Rdiv in Ed. rewrite Rmult_1_l in Ed.
  assert (Rd : exists d, Rabs d <= u /\ @FloatProofs.rnd prec' emax' (/ n) = / n * (1 + d)).
  { destruct (rnd_relative (prec := prec') (emax := emax') (/ n)) as (d & Hd & E).
    - rewrite Rabs_pos_eq by lra. eapply Rle_trans; [|exact Inb]. apply bpow_le. rewrite emin_eq. lia.
    - exists d. split; [|exact E]. eapply Rle_trans; [exact Hd|]. pose proof (eps_pos (prec := prec')) as Pe'.
      apply Rle_trans with (@FloatProofs.eps prec'); [|apply bpow_le; lia].
      apply Rle_div_l; [lra|]. assert (0 <= @FloatProofs.eps prec' * @FloatProofs.eps prec') by (apply Rmult_le_pos; lra). lra. }
  destruct Rd as (d1 & Hd1 & E1). rewrite E1 in Ed. apply Rabs_le_between in Hd1.
  assert (R1 : / n * (1 - u) <= / n * (1 + d1) <= / n * (1 + u)) by (split; apply Rmult_le_compat_l; lra).
  assert (R1' : 0 < / n * (1 - u) /\ / n * u <= / n * 1) by (split; [apply Rmult_lt_0_compat; lra|apply Rmult_le_compat_l; lra]).
  destruct (convert_ok (p' := prec) (e' := emax) (fdiv Bone (of_nat (length iw) : binary_float prec' emax')) Fd) as (Fc & Ec).
  { rewrite Ed, Rabs_pos_eq by lra. apply Rle_trans with 2; [lra|]. change 2 with (bpow radix2 1). apply bpow_le. lia. }
  fold (uniform_weight prec' emax' (length iw) : binary_float prec emax) in Fc, Ec. fold c in Fc, Ec. rewrite Ed in Ec.
  assert (C1 : B2R c <= 1).
  { rewrite Ec, <- E1. apply rnd_le_fmt; [apply fmt_1|].
    apply rnd_le_fmt; [apply fmt_1|lra]. }
  assert (Rc : exists d, Rabs d <= u /\ B2R c = / n * (1 + d1) * (1 + d)).
  { rewrite Ec. destruct (rnd_relative (prec := prec) (emax := emax) (/ n * (1 + d1))) as (d & Hd & E).
    - rewrite Rabs_pos_eq by lra. apply Rle_trans with (/ n * / 2); [|apply Rle_trans with (/ n * (1 - u)); [apply Rmult_le_compat_l; lra|lra]].
      apply Rle_trans with (bpow radix2 (6 - prec) * / 2); [|apply Rmult_le_compat_r; lra].
      change (/ 2) with (bpow radix2 (-1)). rewrite <- bpow_plus. apply bpow_le. rewrite emin_eq. lia.
    - exists d. split; [|exact E]. eapply Rle_trans; [exact Hd|]. change (@FloatProofs.eps prec) with u.
      apply Rle_div_l; [lra|]. assert (0 <= u * u) by (apply Rmult_le_pos; lra). lra. }
  destruct Rc as (d2 & Hd2 & E2). apply Rabs_le_between in Hd2.
  set (k := (1 + d1) * (1 + d2)).
  assert (Hk : 1 - 3 * u <= k <= 1 + 3 * u).
  { unfold k. assert (Q : (1 - u) * (1 - u) <= (1 + d1) * (1 + d2) <= (1 + u) * (1 + u)) by (split; apply Rmult_le_compat; lra).
    assert (u * u <= / 64 * u) by (apply Rmult_le_compat_r; lra). assert (0 <= u * u) by (apply Rmult_le_pos; lra). lra. }
  assert (Ek : B2R c = / n * k) by (rewrite E2; unfold k; ring).
  assert (C0 : 0 <= B2R c) by (rewrite Ek; apply Rmult_le_pos; lra).
  (* the list of weights *)
  set (w := repeat c (length iw)).
  destruct (largest_top iw m Hiw Hm) as (Ft & It & Et). pose proof (exp_pos (B2R m)) as Px.
  assert (Ew : weighted w iw = k * exa).
  { unfold weighted, w. rewrite <- (map_repeat_combine (fun c x => B2R c * importance x)), sum_scale, Ek. unfold exa. field. lra. }
  assert (I0 : forall x : binary_float prec emax, 0 <= importance x).
  { intros x. destruct x as [s|[|]| |s mm e Hbb]; unfold importance; try (left; apply exp_pos); lra. }
  assert (X1 : exp (B2R m) / n <= exa).
  { unfold exa, Rdiv. apply Rmult_le_compat_r; [lra|]. destruct Hm as (Fm & Im & _).
    replace (exp (B2R m)) with (importance m) by (destruct m as [s|[|]| |s mm e Hbb]; try discriminate Fm; reflexivity).
    apply Rsum_in; [now apply in_map|]. intros y Hy. apply in_map_iff in Hy. destruct Hy as (z & <- & _). apply I0. }
  assert (X2 : exa <= exp (B2R m)).
  { unfold exa. apply Rle_div_l; [lra|]. rewrite Rmult_comm. unfold n. rewrite <- sum_repeat. destruct Hm as (_ & _ & Hm). revert Hm. clear - Hiw.
    unfold Rsum. induction iw as [|x l IH]; intros Hm; simpl; [lra|]. specialize (IH ltac:(intros; apply Hiw; now right) ltac:(intros; apply Hm; [now right|assumption])).
    assert (importance x <= exp (B2R m)); [|lra]. destruct (Hiw x (or_introl eq_refl)) as [F|E].
    - specialize (Hm x (or_introl eq_refl) F). assert (Ei : importance x = exp (B2R x)) by (destruct x as [s|[|]| |s mm e Hbb]; try discriminate F; reflexivity).
      rewrite Ei. destruct Hm as [Hm| ->]; [left; now apply exp_increasing|lra].
    - subst x. simpl. left. apply exp_pos. }
  assert (Px' : 0 < exa) by (eapply Rlt_le_trans; [|exact X1]; apply Rdiv_lt_0_compat; lra).
  set (T := exa / exp (B2R m)).
  assert (T1 : / n <= T) by (unfold T; apply Rle_div_r; [lra|]; unfold Rdiv in X1; lra).
  assert (T2 : T <= 1) by (unfold T; apply Rle_div_l; lra).
  assert (Esh : weighted w iw / exp (B2R m) = k * T) by (rewrite Ew; unfold T; field; lra).
  assert (HkT : / n * (61 / 64) <= k * T).
  { rewrite (Rmult_comm k). apply Rmult_le_compat; lra. }
  assert (In2 : 0 < / n * (61 / 64)) by (apply Rmult_lt_0_compat; lra).
  assert (Hrel2 : 8 * n * u + (8 * alpha + 10 * u) / (k * T) <= n * (9 * alpha + 19 * u)).
  { assert (/ (k * T) <= / (/ n * (61 / 64))) by (apply Rinv_le_contravar; lra).
    replace (/ (/ n * (61 / 64))) with (n * (64 / 61)) in H by (field; lra).
    assert ((8 * alpha + 10 * u) / (k * T) <= (8 * alpha + 10 * u) * (n * (64 / 61))) by (apply Rmult_le_compat_l; lra).
    assert (0 <= n * alpha) by (apply Rmult_le_pos; lra). assert (0 <= n * u) by (apply Rmult_le_pos; lra). lra. }
  destruct (C110_log_likelihood_floats prec emax prec' emax' Hp He Hp' He' fexp flog fsum alpha beta w iw m) as (r & Er & Fr & Br); try assumption.
  - unfold w. apply repeat_length.
  - intros y Hy. apply repeat_spec in Hy. subst y. split; [exact Fc|split; [exact C0|exact C1]].
  - unfold w. replace (map B2R (repeat c (length iw))) with (repeat (B2R c) (length iw)) by (generalize (length iw); intros j; induction j as [|j IH]; simpl; [reflexivity|now rewrite IH]).
    rewrite sum_repeat. fold n. rewrite Ek, <- Rmult_assoc, Rinv_r, Rmult_1_l by lra. lra.
  - rewrite Ew. apply Rmult_lt_0_compat; lra.
  - fold n u. rewrite Esh. lra.
  - exists r. split; [|split; [exact Fr|]].
    + rewrite <- Er. unfold log_likelihood. destruct iw as [|a l]; [reflexivity|]. cbv zeta. do 3 f_equal. f_equal. fold c. unfold w.
      set (tt := map _ (a :: l)). rewrite (map_repeat_combine fmul). do 3 f_equal. unfold tt. now rewrite map_length.
    + fold n u in Br. rewrite Esh, Ew in Br. rewrite !ln_mult in Br by lra.
      assert (Lk : Rabs (ln k) <= 6 * u).
      { pose proof (ln_gap k 1 (3 * u) ltac:(lra) ltac:(apply Rabs_le; lra) ltac:(lra)) as G. rewrite ln_1, Rminus_0_r in G. lra. }
      assert (LT : Rabs (ln T) <= ln n).
      { assert (ln (/ n) <= ln T) by (destruct T1 as [T1|<-]; [left; apply ln_increasing; lra|lra]).
        rewrite ln_Rinv in H by lra. assert (ln T <= 0) by (rewrite <- ln_1; destruct T2 as [T2| ->]; [left; apply ln_increasing; lra|lra]).
        apply Rabs_le. lra. }
      set (E := ln exa) in *.
      assert (B1 : u * Rabs (ln k + E) <= u * (6 * u + Rabs E)) by (apply Rmult_le_compat_l; [lra|]; eapply Rle_trans; [apply Rabs_triang|lra]).
      assert (B2 : beta * (Rabs (ln k + ln T) + 1) <= beta * (ln n + 2)).
      { apply Rmult_le_compat_l; [lra|]. pose proof (Rabs_triang (ln k) (ln T)). lra. }
      assert (B3 : u * u <= / 64 * u) by (apply Rmult_le_compat_r; lra).
      assert (B4 : u <= n * u) by (rewrite <- (Rmult_1_l u) at 1; apply Rmult_le_compat_r; lra).
      replace (B2R r - E) with ((B2R r - (ln k + E)) + ln k) by ring.
      eapply Rle_trans; [apply Rabs_triang|]. lra.
Qed.
Print Assumptions C110_unweighted_floats.

(** With weights, the maximum subtracted in front of the exponential is that of all importance weights, of particles
    without weight too: 16 particles with weight 1/16 and importance weight exp(-1000), and one without weight that fits
    the observation 1000 nats better.  The effective sample size is 16 out of 17, above the threshold of 0.9, the
    likelihood exp(-1000), and the result -inf. *)
(** The value of a given number. *)
Ltac float_value :=
  match goal with |- context [@B2R ?p ?e ?x] =>
    rewrite <- (SF2R_B2SF p e x); let v := eval vm_compute in (B2SF x) in replace (B2SF x) with v by (vm_compute; reflexivity) end;
  unfold SF2R, F2R; cbn [Fnum Fexp cond_Zopp bpow];
  repeat match goal with |- context [Z.pow_pos ?a ?b] => let q := eval vm_compute in (Z.pow_pos a b) in replace (Z.pow_pos a b) with q by (vm_compute; reflexivity) end;
  cbn [Z.opp]; lra.

Definition num (s : bool) (k : Z) (e : Z) : f32 := binary_normalize 24 128 _ _ mode_NE (if s then - k else k) e false.
Definition sixteenth : f32 := num false 1 (-4).
Definition thousand_below : f32 := num true 1000 0.
Definition skewed_weights : list f32 := B754_zero false :: repeat sixteenth 16.
Definition skewed : list f32 := B754_zero false :: repeat thousand_below 16.

Lemma sixteenth_R : B2R sixteenth = / 16.
Proof. float_value. Qed.
Lemma thousand_R : B2R thousand_below = -1000.
Proof. float_value. Qed.

Theorem C110_weighted_refuted :
  forall fexp flog fsum,
    (forall s, fexp (B754_zero s) = Bone) -> (exists s, fexp thousand_below = B754_zero s) ->
    (forall s, flog (B754_zero s) = B754_infinity true) -> adds_up fsum ->
    log_likelihood 53 1024 fexp flog fsum skewed (Some skewed_weights) = Ok (B754_infinity true) /\
    ln (weighted skewed_weights skewed) = -1000 /\
    Rsum (map B2R skewed_weights) = 1 /\ (exists ess, get_ess fexp sum_left skewed_weights true = Ok ess /\ B2R ess = 16).
Proof.
  intros fexp flog fsum He0 (s1 & He1) Hl Hs. split; [|split; [|split]].
  - assert (Em : fmaxl skewed = B754_zero false) by (vm_compute; reflexivity).
    assert (E0 : fsub (B754_zero false : f32) (B754_zero false) = B754_zero false) by reflexivity.
    assert (E1 : fsub thousand_below (B754_zero false) = thousand_below) by (apply B2SF_inj; vm_compute; reflexivity).
    assert (Et : map (fun x => fexp (fsub x (fmaxl skewed))) skewed = Bone :: repeat (B754_zero s1) 16).
    { rewrite Em. unfold skewed. cbn [map repeat]. rewrite E0, E1, He0, He1. reflexivity. }
    unfold log_likelihood. unfold skewed at 1. cbv zeta. rewrite Et, Em.
    assert (Ep : map (fun wt => fmul (fst wt) (snd wt)) (combine skewed_weights (Bone :: repeat (B754_zero s1) 16)) = B754_zero false :: repeat (B754_zero s1) 16) by (destruct s1; vm_compute; reflexivity).
    rewrite Ep. pose proof (Hs (B754_zero false :: repeat (B754_zero s1) 16)) as A.
    assert (U : forall x : f32, In x (B754_zero false :: repeat (B754_zero s1) 16) -> unit_interval x).
    { intros x [<-|Hx]; [split; [reflexivity|simpl; lra]|]. apply repeat_spec in Hx. subst x. split; [reflexivity|simpl; lra]. }
    destruct (added_up_bounds _ _ A U) as (F & _ & _ & L1 & L2); [simpl; lra|].
    assert (Z : Rsum (map B2R ((B754_zero false : f32) :: repeat (B754_zero s1) 16)) = 0) by (unfold Rsum; simpl; lra).
    rewrite Z, !Rmult_0_r in *. destruct (FloatNormalize.zero_float _ F ltac:(lra)) as (s & ->). rewrite Hl. reflexivity.
  - assert (Ei : importance thousand_below = exp (-1000)).
    { rewrite <- thousand_R. assert (F : is_finite thousand_below = true) by (vm_compute; reflexivity).
      destruct thousand_below as [s|[|]| |s mm e Hbb]; try discriminate F; reflexivity. }
    unfold weighted, skewed_weights, skewed. cbn [combine repeat map fst snd]. rewrite Ei, sixteenth_R. unfold Rsum. cbn [fold_right].
    change (B2R (B754_zero false : f32)) with 0.
    match goal with |- ln ?t = _ => replace t with (exp (-1000)) by lra end. apply ln_exp.
  - unfold skewed_weights. cbn [repeat map]. rewrite sixteenth_R. unfold Rsum. cbn [fold_right]. change (B2R (B754_zero false : f32)) with 0. lra.
  - eexists. split; [reflexivity|]. cbn [bind].
    float_value.
Qed.
Print Assumptions C110_weighted_refuted.

(** float32, correctly rounded exp and log; three particles, one with importance weight zero. *)
Definition half : f32 := num false 1 (-1).
Definition quarter : f32 := num false 1 (-2).
Definition some_importance : list f32 := [B754_zero false; B754_infinity true; num true 3 0].
Lemma half_R : B2R half = / 2.
Proof. float_value. Qed.
Lemma quarter_R : B2R quarter = / 4.
Proof. float_value. Qed.
Lemma three_R : B2R (num true 3 0) = -3. Proof. float_value. Qed.
Lemma some_low : forall x, In x some_importance -> number_or_ninf x.
Proof. intros x [<-|[<-|[<-|[]]]]; [now left|now right|left; vm_compute; reflexivity]. Qed.
Lemma some_largest : largest (B754_zero false) some_importance.
Proof.
  split; [reflexivity|]. split; [now left|]. intros x [<-|[<-|[<-|[]]]] F; [simpl; lra|discriminate F|].
  rewrite three_R. simpl. lra.
Qed.
Lemma wide32 : (24 + 3 <= 128)%Z. Proof. lia. Qed.

(** exp(-1000) rounds to zero in float32. *)
Lemma exp_underflows : exists s, rounded_exp thousand_below = B754_zero s.
Proof.
  pose proof thousand_R as E. destruct thousand_below as [s|s| |s m e Hb] eqn:Et; try (simpl in E; lra).
  exists false. cbn [rounded_exp]. cbv zeta. rewrite E.
  assert (R0 : round radix2 (SpecFloat.fexp 24 128) ZnearestE (exp (-1000)) = 0).
  { pose proof (exp_pos (-1000)) as P.
    assert (U : exp (-1000) < bpow radix2 (-200)).
    { rewrite bpow_exp. apply exp_increasing. change (IZR radix2) with 2.
      assert (ln 2 <= 1).
      { rewrite <- (ln_exp 1). left. apply ln_increasing; [lra|]. pose proof (exp_ineq1 1 ltac:(lra)). lra. }
      lra. }
    destruct (mag radix2 (exp (-1000))) as (k & Hk). specialize (Hk ltac:(lra)). rewrite Rabs_pos_eq in Hk by lra.
    apply (round_N_small_pos radix2 (SpecFloat.fexp 24 128) (fun x => negb (Z.even x)) _ k Hk).
    assert (Hk2 : (k - 1 < -200)%Z) by (apply (lt_bpow radix2); lra).
    rewrite fe_eq, emin_eq. lia. }
  assert (M0 : ZnearestE (scaled_mantissa radix2 (SpecFloat.fexp 24 128) (exp (-1000))) = 0%Z).
  { unfold round in R0. apply eq_0_F2R in R0. exact R0. }
  rewrite M0. reflexivity.
Qed.

Lemma ln_half_bounds x : / 3 <= x <= 1 -> Rabs (ln x) <= 2.
Proof.
  intros H. assert (ln x <= 0) by (rewrite <- ln_1; destruct (proj2 H) as [L| ->]; [left; apply ln_increasing; lra|lra]).
  assert (- 2 <= ln x).
  { rewrite <- (ln_exp (-2)). assert (exp (-2) <= / 3).
    { replace (-2) with (- (2)) by ring. rewrite exp_Ropp. apply Rinv_le_contravar; [lra|]. pose proof (exp_ineq1 2 ltac:(lra)). lra. }
    destruct (Rle_lt_or_eq_dec (exp (-2)) x ltac:(lra)) as [L| <-]; [left; apply ln_increasing; [apply exp_pos|exact L]|lra]. }
  apply Rabs_le. lra.
Qed.

Example C110_nonvacuous :
  (exists r, log_likelihood 53 1024 rounded_exp rounded_log sum_left some_importance (Some [half; quarter; quarter]) = Ok r /\ is_finite r = true /\
     Rabs (B2R r - ln (weighted [half; quarter; quarter] some_importance)) <= / 10000) /\
  (exists r, log_likelihood 53 1024 rounded_exp rounded_log sum_left some_importance None = Ok r /\ is_finite r = true /\
     Rabs (B2R r - ln (Rsum (map importance some_importance) / 3)) <= / 10000) /\
  (exists s, rounded_exp thousand_below = B754_zero s).
Proof.
  assert (I3 : importance (num true 3 0) = exp (-3)).
  { rewrite <- three_R. assert (F : is_finite (num true 3 0) = true) by (vm_compute; reflexivity).
    destruct (num true 3 0) as [s|[|]| |s mm e Hbb]; try discriminate F; reflexivity. }
  assert (X3 : 0 < exp (-3) < 1) by (split; [apply exp_pos|]; rewrite <- exp_0; apply exp_increasing; lra).
  assert (I0 : importance (B754_zero false : f32) = 1) by (unfold importance; simpl; apply exp_0).
  assert (U : FloatProofs.eps (prec := 24) = / 16777216) by (unfold FloatProofs.eps; simpl; lra).
  assert (U' : bpow radix2 (- (24)) = / 16777216) by (simpl; lra).
  assert (Rm : Rabs (B2R (B754_zero false : f32)) <= bpow radix2 (128 - 2)) by (simpl B2R; rewrite Rabs_R0; apply bpow_ge_0).
  assert (E0 : exp (B2R (B754_zero false : f32)) = 1) by (simpl; apply exp_0).
  assert (D1 : forall x, x / 1 = x) by (intros; field).
  assert (N3 : INR (length some_importance) = 3) by (simpl; lra).
  split; [|split].
  - set (w := [half; quarter; quarter]).
    assert (Ew : weighted w some_importance = / 2 + / 4 * exp (-3)).
    { unfold weighted, w, some_importance. cbn [combine map fst snd]. rewrite I3, I0, half_R, quarter_R. unfold Rsum, importance. cbn [fold_right]. lra. }
    destruct (C110_log_likelihood_floats 24 128 53 1024 _ _ _ _ rounded_exp rounded_log sum_left (FloatProofs.eps (prec := 24)) (FloatProofs.eps (prec := 24))
      w some_importance (B754_zero false) wide32 rounded_exp_ok (rounded_log_ok wide32)) as (r & Er & Fr & Br); try exact Rm.
    + rewrite U. lra.
    + apply sum_left_ok.
    + reflexivity.
    + intros c [<-|[<-|[<-|[]]]]; (split; [vm_compute; reflexivity|]); rewrite ?half_R, ?quarter_R; lra.
    + unfold w. cbn [map]. rewrite half_R, quarter_R. unfold Rsum. simpl. lra.
    + apply some_low.
    + apply some_largest.
    + rewrite N3, U'. lra.
    + rewrite Ew. lra.
    + rewrite N3, U', U, Ew, E0, D1.
      assert (/ (/ 2 + / 4 * exp (-3)) <= / (/ 2)) by (apply Rinv_le_contravar; lra). rewrite Rinv_inv in H. unfold Rdiv. lra.
    + exists r. split; [exact Er|]. split; [exact Fr|]. eapply Rle_trans; [exact Br|].
      rewrite N3, U', U, Ew, E0, D1. pose proof (ln_half_bounds (/ 2 + / 4 * exp (-3)) ltac:(lra)).
      assert (/ (/ 2 + / 4 * exp (-3)) <= / (/ 2)) by (apply Rinv_le_contravar; lra). rewrite Rinv_inv in H0. unfold Rdiv. lra.
  - assert (Es : Rsum (map importance some_importance) = 1 + exp (-3)).
    { unfold some_importance. cbn [map]. rewrite I3, I0. unfold Rsum, importance. cbn [fold_right]. lra. }
    destruct (C110_unweighted_floats 24 128 53 1024 _ _ _ _ rounded_exp rounded_log sum_left (FloatProofs.eps (prec := 24)) (FloatProofs.eps (prec := 24))
      some_importance (B754_zero false) wide32 ltac:(lia) ltac:(lia) rounded_exp_ok (rounded_log_ok wide32)) as (r & Er & Fr & Br); try exact Rm.
    + rewrite U. lra.
    + apply sum_left_ok.
    + apply some_low.
    + apply some_largest.
    + rewrite N3, U'. lra.
    + rewrite N3, U', U. lra.
    + exists r. split; [exact Er|]. split; [exact Fr|]. rewrite N3, Es in Br. rewrite Es. eapply Rle_trans; [exact Br|].
      rewrite U', U. pose proof (ln_half_bounds ((1 + exp (-3)) / 3) ltac:(lra)).
      assert (ln 3 <= 2).
      { rewrite <- (ln_exp 2). left. apply ln_increasing; [lra|]. pose proof (exp_ineq1 2 ltac:(lra)). lra. }
      lra.
  - apply exp_underflows.
Qed.
