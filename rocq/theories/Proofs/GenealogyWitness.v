(** A run of SISR on which the fixed-lag smoother returns values that are not those of an ancestor. *)
From Coq Require Import Reals List Bool Arith Lia Lra String.
From Verif.Model Require Import Base Xf Tensor Weights Particle FilterLoop Smoothing.
From Verif.Spec Require Import WeightsSpec ParticleSpec GenealogySpec.
From Verif.Proofs Require Import WeightsProofs MomentsProofs ResamplingProofs ParticleProofs StepProofs GenealogyProofs.
Import ListNotations.
Local Open Scope nat_scope.

(** Two particles; the value of particle [i] at time [t] is [2 t + i].  The first observation makes the second particle
    nine times as likely as the first, later ones do not distinguish; the resampler picks the last particle. *)
Definition wit : @oracle nat (list xf) := {|
  resampler := fun _ _ m => Ok (Mat (m_rows m) (m_cols m) (fun _ _ => m_rows m - 1));
  propagate := fun _ x => TS (S (ts_time x)) (Mat (m_rows (ts_val x)) (m_cols (ts_val x)) (fun i _ => 2 * S (ts_time x) + i));
  sample_and_weight := fun _ _ x _ _ =>
    (TS (S (ts_time x)) (Mat (m_rows (ts_val x)) (m_cols (ts_val x)) (fun i _ => 2 * S (ts_time x) + i)),
     Mat (m_rows (ts_val x)) (m_cols (ts_val x))
       (fun i _ => if ((ts_time x =? 0) && (i =? 1))%bool then Fin (ln 9) else Fin 0));
  pre_weight := fun _ x => Mat (m_rows (ts_val x)) (m_cols (ts_val x)) (fun _ _ => Fin 0)
|}.
Definition wit_x0 : tstate nat := TS 0 (Mat 2 1 (fun i _ => i)).

Lemma wit_res n r flag : 0 < n -> resampler_ok wit n r flag.
Proof.
  intros Hn m Hm. eexists. split; [reflexivity|]. split; [split; [exact Hm|reflexivity]|]. intros i j H1 H2. cbn. lia.
Qed.
Lemma wit_prop r : propagate_shape wit r. Proof. intros x. now split. Qed.
Lemma wit_samp r : proposal_shape wit r. Proof. intros y x w nw. split; now split. Qed.
Lemma wit_pre : preweight_shape wit. Proof. intros y x. now split. Qed.

Definition low_dec W thr : {(ess_of W < thr)%R} + {~ (ess_of W < thr)%R} := Rlt_dec _ _.

Lemma ess_half : ess_of [(/ 2)%R; (/ 2)%R] = 2%R.
Proof. unfold ess_of. cbn [map Rsum fold_right]. field. Qed.

Section Wit.
  Variable lowest : R.
  Let o := with_past 0 wit.
  Let thr := (3 / 2)%R.

  Lemma wp_res r flag : resampler_ok o 2 r flag.
  Proof. apply (wit_res 2 r flag). lia. Qed.
  Lemma wp_samp r : proposal_shape o r.
  Proof. intros y x w nw. split; now split. Qed.

  (** A step on a state with normalised weights [1/2, 1/2]. *)
  Lemma step_even r (s : corr (list nat)) : state_ok 2 1 s -> imp lowest (col (c_w s) 0) = [(/ 2)%R; (/ 2)%R] ->
    exists c, sisr_predict lowest o thr r s = Ok c /\ pred_ok lowest 2 1 c /\ ts_time (p_x c) = ts_time (c_x s) /\
      col (ts_val (p_x c)) 0 = col (ts_val (c_x s)) 0 /\ col (p_inds c) 0 = col (c_inds s) 0 /\
      imp lowest (col (p_w c) 0) = [(/ 2)%R; (/ 2)%R].
  Proof.
    intros Hs HW. destruct (sisr_predict_spec lowest o thr r 2 1 s ltac:(lia) Hs (wp_res r true)) as (p & Ep & Ht & _ & _ & _ & _ & _ & U).
    destruct (predict_ok lowest o (SISR thr) r 2 1 s ltac:(lia) Hs (wp_res r true)) as (p' & Ep' & Hp & _).
    cbn [predict] in Ep'. rewrite Ep in Ep'. injection Ep' as <-.
    destruct (U 0 ltac:(lia)) as (U1 & U2 & U3 & U4).
    { unfold low, W. rewrite HW, ess_half. destruct (Rlt_dec 2 thr); [unfold thr in *; lra|reflexivity]. }
    exists p. split; [exact Ep|]. split; [exact Hp|]. split; [exact Ht|]. split; [exact U1|]. split; [exact U4|].
    rewrite U2. rewrite imp_sanitise; [exact HW|]. destruct Hs as [_ [S1 S2] S3 _]. apply col_clean; [exact S3|lia].
  Qed.

  (** A step on a state with normalised weights [1/10, 9/10]. *)
  Lemma step_uneven r (s : corr (list nat)) : state_ok 2 1 s -> imp lowest (col (c_w s) 0) = [(1/10)%R; (9/10)%R] ->
    exists c, sisr_predict lowest o thr r s = Ok c /\ pred_ok lowest 2 1 c /\ ts_time (p_x c) = ts_time (c_x s) /\
      col (p_inds c) 0 = [1; 1] /\
      imp lowest (col (p_w c) 0) = [(/ 2)%R; (/ 2)%R].
  Proof.
    intros Hs HW. destruct (sisr_predict_spec lowest o thr r 2 1 s ltac:(lia) Hs (wp_res r true)) as (p & Ep & Ht & _ & _ & _ & _ & L & _).
    destruct (predict_ok lowest o (SISR thr) r 2 1 s ltac:(lia) Hs (wp_res r true)) as (p' & Ep' & Hp & _).
    cbn [predict] in Ep'. rewrite Ep in Ep'. injection Ep' as <-.
    assert (El : low lowest thr s 0 = true).
    { unfold low, W. rewrite HW. destruct (Rlt_dec _ thr) as [|Hn]; [reflexivity|]. exfalso. apply Hn. unfold ess_of, thr.
      cbn [map Rsum fold_right]. assert (E : (1 / 10 * (1 / 10) + (9 / 10 * (9 / 10) + 0) = 82/100)%R) by field.
      rewrite E. apply Rmult_lt_reg_l with (82/100)%R; [lra|]. rewrite Rinv_r by lra. lra. }
    destruct L as [L|(nw & sel & _ & Er & [[V1 V2] _] & A)]; [pose proof (rank_lt _ 0 1 ltac:(lia) El); lia|].
    destruct (A 0 ltac:(lia) El) as (_ & _ & A2 & _ & A3).
    exists p. split; [exact Ep|]. split; [exact Hp|]. split; [exact Ht|].
    split; [|rewrite A2, imp_zero by lia; reflexivity].
    rewrite A3. cbn [o with_past resampler wit] in Er. injection Er as <-. cbn [m_rows] in V1.
    unfold col. cbn [m_rows m_get]. rewrite V1. reflexivity.
  Qed.

  Lemma wit_correct r y (p : pred (list nat)) : pred_ok lowest 2 1 p -> imp lowest (col (p_w p) 0) = [(/ 2)%R; (/ 2)%R] ->
    exists c, sisr_correct lowest o r y p = Ok c /\ state_ok 2 1 c /\ ts_time (c_x c) = S (ts_time (p_x p)) /\
      (forall i, m_get (ts_val (c_x c)) i 0 = m_get (ts_val (p_x p)) i 0 ++ [2 * S (ts_time (p_x p)) + i]) /\
      c_inds c = p_inds p /\
      imp lowest (col (c_w c) 0) = if ts_time (p_x p) =? 0 then [(1/10)%R; (9/10)%R] else [(/ 2)%R; (/ 2)%R].
  Proof.
    intros Hp HW. destruct (sisr_correct_spec lowest o r y 2 1 p ltac:(lia) Hp (wp_samp r)) as (c & Ec & Hc & Hx & Hi & Hall).
    { intros i j H1 H2. cbn. now destruct ((ts_time (p_x p) =? 0) && (i =? 1))%bool. }
    exists c. split; [exact Ec|]. split; [exact Hc|]. rewrite Hx. split; [reflexivity|]. split; [reflexivity|]. split; [exact Hi|].
    destruct (Hall 0 ltac:(lia)) as (_ & _ & _ & _ & H). rewrite H, HW.
    assert (Er : reals (snd (sample_and_weight o r y (p_x p) (p_w p) (p_nw p))) 0 =
                 if ts_time (p_x p) =? 0 then [0%R; ln 9] else [0%R; 0%R]).
    { unfold reals, col. cbn [o with_past sample_and_weight wit snd now_ts ts_time ts_val map_mat m_rows m_get].
      destruct Hp as [[E1 _] _ _ _ _ _]. rewrite E1. destruct (ts_time (p_x p) =? 0); reflexivity. }
    rewrite Er. destruct (ts_time (p_x p) =? 0); unfold tilt, normal; cbn [combine map fst snd Rsum fold_right].
    - rewrite exp_0, exp_ln by lra. f_equal; [field|]. f_equal. field.
    - rewrite exp_0. f_equal; [field|]. f_equal. field.
  Qed.

  Definition wit_cf : fconf := FConf 1 true "skip".
  Definition wit_y : list xf := [Fin 0].

  Lemma wit_step fuel r (s : corr (list nat)) p c : sisr_predict lowest o thr r s = Ok p -> sisr_correct lowest o (S r) wit_y p = Ok c ->
    filter_step lowest o (SISR thr) wit_cf (S fuel) r wit_y s = Some (Ok (c, S (S r), [c])).
  Proof.
    intros Ep Ec. unfold filter_step. cbn [predict correct]. rewrite Ep. cbn [advance wit_cf observe_every Nat.eqb].
    rewrite Nat.mod_1_r. cbn [Nat.eqb missing wit_y forallb xisnan andb correct]. rewrite Ec. reflexivity.
  Qed.

  Lemma wit_run : exists s0 c1 c2 c3,
    initialize lowest 2 1 wit_x0 = Ok s0 /\ state_ok 2 1 s0 /\
    batch_filter lowest o (SISR thr) wit_cf 1 0 [wit_y; wit_y; wit_y] (newborn s0) = Some (Ok (c3, 6, [c1; c2; c3])) /\
    state_ok 2 1 c1 /\ state_ok 2 1 c2 /\ state_ok 2 1 c3 /\
    m_get (c_inds c3) 0 0 = 1 /\
    now 0 (m_get (ts_val (c_x c2)) 0 0) = 4 /\ now 0 (m_get (ts_val (c_x c2)) 1 0) = 5 /\
    m_get (ts_val (c_x c3)) 0 0 = m_get (ts_val (c_x c2)) 0 0 ++ [6].
  Proof.
    destruct (initialize_ok lowest 2 1 wit_x0 ltac:(lia)) as (s0 & E0 & H0 & Hx0 & _ & Hi0 & Hw0); [now split|].
    assert (H0' : state_ok 2 1 (newborn s0)) by (destruct H0 as [A B C D]; constructor; assumption).
    assert (W0 : imp lowest (col (c_w (newborn s0)) 0) = [(/ 2)%R; (/ 2)%R]).
    { cbn [newborn c_w]. rewrite Hw0, imp_zero by lia. reflexivity. }
    destruct (step_even 0 (newborn s0) H0' W0) as (p0 & Ep0 & Hp0 & Ht0 & Hv0 & Hin0 & Wp0).
    assert (T0 : ts_time (p_x p0) = 0) by (rewrite Ht0; cbn [newborn c_x ts_time]; now rewrite Hx0).
    destruct (wit_correct 1 wit_y p0 Hp0 Wp0) as (c1 & Ec1 & Hc1 & T1 & Hv1 & Hin1 & W1). rewrite T0 in *. cbn [Nat.eqb] in W1.
    destruct (step_uneven 2 c1 Hc1 W1) as (p1 & Ep1 & Hp1 & Htp1 & Hinp1 & Wp1). rewrite T1 in Htp1.
    destruct (wit_correct 3 wit_y p1 Hp1 Wp1) as (c2 & Ec2 & Hc2 & T2 & Hv2 & Hin2 & W2). rewrite Htp1 in *. cbn [Nat.eqb] in W2.
    destruct (step_even 4 c2 Hc2 W2) as (p2 & Ep2 & Hp2 & Htp2 & Hvp2 & Hinp2 & Wp2). rewrite T2 in Htp2.
    destruct (wit_correct 5 wit_y p2 Hp2 Wp2) as (c3 & Ec3 & Hc3 & T3 & Hv3 & Hin3 & _). rewrite Htp2 in *.
    exists s0, c1, c2, c3. split; [exact E0|]. split; [exact H0|].
    split.
    { cbn [batch_filter]. rewrite (wit_step 0 0 _ _ _ Ep0 Ec1). rewrite (wit_step 0 2 _ _ _ Ep1 Ec2).
      rewrite (wit_step 0 4 _ _ _ Ep2 Ec3). reflexivity. }
    split; [exact Hc1|]. split; [exact Hc2|]. split; [exact Hc3|].
    destruct Hc2 as [[X21 X22] _ _ [[I21 I22] _]]. destruct Hp2 as [[P21 P22] _ _ _ _ [[Q21 Q22] _]]. destruct Hp1 as [_ _ _ _ _ [[Q11 Q12] _]].
    split.
    { rewrite Hin3. rewrite (col_eq_get _ _ _ _ Hinp2) by lia. rewrite Hin2.
      rewrite <- (nth_col (p_inds p1) 0 0 0) by lia. now rewrite Hinp1. }
    split; [rewrite Hv2; unfold now; now rewrite last_last|]. split; [rewrite Hv2; unfold now; now rewrite last_last|].
    rewrite Hv3. rewrite (col_eq_get _ _ _ _ Hvp2) by lia. reflexivity.
  Qed.

  Lemma fl_wrong : exists s0 c r l cp lp out,
    initialize lowest 2 1 wit_x0 = Ok s0 /\
    batch_filter lowest wit (SISR thr) wit_cf 1 0 [wit_y; wit_y; wit_y] s0 = Some (Ok (c, r, l)) /\
    batch_filter lowest o (SISR thr) wit_cf 1 0 [wit_y; wit_y; wit_y] (newborn s0) = Some (Ok (cp, r, lp)) /\
    do_sample_fl 2 1 (s0 :: l) = Ok out /\ ~ lists_pasts 2 1 out cp.
  Proof.
    destruct wit_run as (s0 & c1 & c2 & c3 & E0 & H0 & Eb & Hc1 & Hc2 & Hc3 & Hind & Hv0 & Hv1 & Hpath).
    pose proof (sim_batch 0 lowest wit wit_prop wit_samp (SISR thr) wit_cf 1 [wit_y; wit_y; wit_y] 0 (newborn s0)) as Hsim.
    rewrite now_newborn in Hsim. fold o in Hsim. rewrite Eb in Hsim. cbn [lift_out map] in Hsim.
    pose proof Hc3 as [[X31 X32] _ _ [[I31 I32] I33]]. pose proof Hc2 as [[X21 X22] _ _ [[I21 I22] I23]].
    pose proof Hc1 as [[X11 X12] _ _ [[I11 I12] I13]]. pose proof H0 as [[X01 X02] _ _ [[I01 I02] I03]].
    assert (Hfl : exists m0 m1 m2 m3, do_sample_fl 2 1 [s0; now_state 0 c1; now_state 0 c2; now_state 0 c3] = Ok [m0; m1; m2; m3] /\
      m_get m2 0 0 = now 0 (m_get (ts_val (c_x c2)) 1 0)).
    { unfold do_sample_fl. cbn [rev app fl_loop].
      destruct (batched_gather_spec (c_inds c3) (arange 2 1)) as (i2 & E2 & [S21 S22] & G2 & _); [cbn; lia|rewrite I31; intros i j H1 H2; exact H1|].
      change (c_inds (now_state 0 c3)) with (c_inds c3). rewrite E2. cbn [bind].
      assert (V2 : entries (fun k => k < 2) i2).
      { intros i j H1 H2. rewrite G2. apply I33; cbn [arange m_get m_rows m_cols] in *; lia. }
      destruct (batched_gather_spec (ts_val (c_x (now_state 0 c2))) i2) as (m2 & -> & [_ _] & M2 & _); [cbn in *; lia|cbn; rewrite X21; exact V2|].
      cbn [bind].
      destruct (batched_gather_spec (c_inds c2) i2) as (i1 & E1 & [S11 S12] & G1 & _); [cbn in *; lia|rewrite I21; exact V2|].
      change (c_inds (now_state 0 c2)) with (c_inds c2). rewrite E1. cbn [bind].
      assert (V1 : entries (fun k => k < 2) i1).
      { intros i j H1 H2. rewrite G1. apply I23; [|cbn in *; lia]. rewrite I21. apply V2; lia. }
      destruct (batched_gather_spec (ts_val (c_x (now_state 0 c1))) i1) as (m1 & -> & [_ _] & _); [cbn in *; lia|cbn; rewrite X11; exact V1|].
      cbn [bind].
      destruct (batched_gather_spec (c_inds c1) i1) as (i0 & Ei0 & [S01 S02] & G0 & _); [cbn in *; lia|rewrite I11; exact V1|].
      change (c_inds (now_state 0 c1)) with (c_inds c1). rewrite Ei0. cbn [bind].
      assert (V0 : entries (fun k => k < 2) i0).
      { intros i j H1 H2. rewrite G0. apply I13; [|cbn in *; lia]. rewrite I11. apply V1; lia. }
      destruct (batched_gather_spec (ts_val (c_x s0)) i0) as (m0 & -> & [_ _] & _); [cbn in *; lia|cbn; rewrite X01; exact V0|].
      cbn [bind rev app].
      exists m0, m1, m2, (ts_val (c_x (now_state 0 c3))). split; [reflexivity|].
      rewrite M2, G2. cbn [arange m_get]. rewrite Hind. reflexivity. }
    destruct Hfl as (m0 & m1 & m2 & m3 & Efl & Hm2).
    exists s0, (now_state 0 c3), 6, (map (now_state 0) [c1; c2; c3]), c3, [c1; c2; c3], [m0; m1; m2; m3].
    split; [exact E0|]. split; [exact Hsim|]. split; [exact Eb|]. split; [exact Efl|].
    intros Hbad. specialize (Hbad 0 0 ltac:(lia) ltac:(lia)). cbn [map] in Hbad. rewrite Hpath in Hbad.
    change [m_get m0 0 0; m_get m1 0 0; m_get m2 0 0; m_get m3 0 0] with ([m_get m0 0 0; m_get m1 0 0; m_get m2 0 0] ++ [m_get m3 0 0]) in Hbad.
    apply app_inj_tail in Hbad. destruct Hbad as [Hbad _]. apply (f_equal (now 0)) in Hbad. rewrite Hv0 in Hbad.
    change (now 0 [m_get m0 0 0; m_get m1 0 0; m_get m2 0 0]) with (m_get m2 0 0) in Hbad. rewrite Hm2, Hv1 in Hbad. discriminate.
  Qed.
End Wit.
