(** The steps of the particle filters treat parallel filters separately. *)
From Coq Require Import Reals List Bool Arith Lia Lra.
From Verif.Model Require Import Base Xf Tensor Weights Particle.
From Verif.Spec Require Import WeightsSpec ParticleSpec.
From Verif.Proofs Require Import WeightsProofs MomentsProofs ResamplingProofs ParticleProofs StepProofs.
Import ListNotations.
Local Open Scope nat_scope.

Section Columns.
  Context {X Y D : Type}.
  Variable lowest : R.
  Variables o1 o2 : @oracle X Y.

  Lemma columnwise_ok {o : @oracle X Y} r flag (d : nat -> D) f n : 0 < n ->
    columnwise_resampler o r flag d f -> resampler_ok o n r flag.
  Proof.
    intros Hn H m Hm. destruct (H m ltac:(lia)) as (i & Hi & Hs & He & _). exists i. rewrite Hm in Hs, He. split; [exact Hi|]. now split.
  Qed.

  Lemma sisr_predict_columns thr r1 r2 n b1 b2 (s1 s2 : corr X) (d1 d2 : nat -> D) f j1 j2 :
    0 < n -> state_ok n b1 s1 -> state_ok n b2 s2 -> j1 < b1 -> j2 < b2 ->
    columnwise_resampler o1 r1 true d1 f -> columnwise_resampler o2 r2 true d2 f ->
    same_filter s1 j1 s2 j2 -> d1 (slot lowest thr s1 j1) = d2 (slot lowest thr s2 j2) ->
    exists p1 p2, sisr_predict lowest o1 thr r1 s1 = Ok p1 /\ sisr_predict lowest o2 thr r2 s2 = Ok p2 /\
      same_prediction p1 j1 p2 j2.
  Proof.
    intros Hn H1 H2 Hj1 Hj2 Hr1 Hr2 (Et & Ex & Ew & _ & Ei) Ed.
    destruct (sisr_predict_spec lowest o1 thr r1 n b1 s1 Hn H1 (columnwise_ok _ _ _ _ _ Hn Hr1)) as (p1 & E1 & T1 & [Sx1 _] & _ & _ & _ & L1 & U1).
    destruct (sisr_predict_spec lowest o2 thr r2 n b2 s2 Hn H2 (columnwise_ok _ _ _ _ _ Hn Hr2)) as (p2 & E2 & T2 & [Sx2 _] & _ & _ & _ & L2 & U2).
    exists p1, p2. split; [exact E1|]. split; [exact E2|]. split; [congruence|].
    assert (EW : W lowest s1 j1 = W lowest s2 j2) by (unfold W; now rewrite Ew).
    assert (El : low lowest thr s1 j1 = low lowest thr s2 j2) by (unfold low; now rewrite EW).
    destruct (low lowest thr s1 j1) eqn:E.
    - symmetry in El.
      pose proof (rank_lt _ j1 b1 Hj1 E) as R1. pose proof (rank_lt _ j2 b2 Hj2 El) as R2.
      destruct L1 as [L1|(nw1 & sel1 & [Sn1 Sc1] & Q1 & V1 & A1)]; [lia|].
      destruct L2 as [L2|(nw2 & sel2 & [Sn2 Sc2] & Q2 & V2 & A2)]; [lia|].
      destruct (A1 j1 Hj1 E) as (B11 & B12 & B13 & B14 & B15). destruct (A2 j2 Hj2 El) as (B21 & B22 & B23 & B24 & B25).
      destruct (Hr1 nw1 ltac:(lia)) as (i1 & I1 & _ & _ & C1). destruct (Hr2 nw2 ltac:(lia)) as (i2 & I2 & _ & _ & C2).
      rewrite Q1 in I1. injection I1 as <-. rewrite Q2 in I2. injection I2 as <-.
      change (slot lowest thr s1 j1) with (rank (low lowest thr s1) j1) in Ed.
      change (slot lowest thr s2 j2) with (rank (low lowest thr s2) j2) in Ed.
      assert (Es : col sel1 (rank (low lowest thr s1) j1) = col sel2 (rank (low lowest thr s2) j2)).
      { rewrite C1, C2 by lia. rewrite B11, B21, EW, Ed. reflexivity. }
      split; [|split; [congruence|split; [congruence|congruence]]].
      rewrite B12, B22, Es. apply map_ext_in. intros a Ha. apply (col_eq_get _ _ j1 j2 Ex).
      + destruct H1 as [[G1 _] _ _ _], H2 as [[G2 _] _ _ _]. congruence.
      + destruct H1 as [[G1 _] _ _ _]. rewrite G1. apply in_col in Ha. destruct Ha as (i & Hi & <-). destruct V2 as [[V21 V22] V23].
        apply V23; lia.
    - symmetry in El. destruct (U1 j1 Hj1 E) as (-> & -> & -> & ->). destruct (U2 j2 Hj2 El) as (-> & -> & -> & ->).
      rewrite Ex, Ew, EW, Ei. now repeat split.
  Qed.

  Lemma plain_predict_columns k r1 r2 n b1 b2 (s1 s2 : corr X) j1 j2 : k = APF \/ k = GPF ->
    0 < n -> state_ok n b1 s1 -> state_ok n b2 s2 -> j1 < b1 -> j2 < b2 ->
    same_filter s1 j1 s2 j2 ->
    exists p1 p2, predict lowest o1 k r1 s1 = Ok p1 /\ predict lowest o2 k r2 s2 = Ok p2 /\ same_prediction p1 j1 p2 j2.
  Proof.
    intros Hk Hn [Hx1 Hw1 He1 Hi1] [Hx2 Hw2 He2 Hi2] Hj1 Hj2 (Et & Ex & Ew & _ & Ei).
    destruct (normalize_mat_spec lowest n b1 (c_w s1) Hn Hw1 He1) as (nw1 & N1 & [S1 S1'] & C1).
    destruct (normalize_mat_spec lowest n b2 (c_w s2) Hn Hw2 He2) as (nw2 & N2 & [S2 S2'] & C2).
    destruct Hk as [-> | ->]; unfold predict, apf_predict, gpf_predict; rewrite N1, N2; cbn [bind];
      (do 2 eexists; split; [reflexivity|]; split; [reflexivity|]);
      unfold same_prediction; cbn [p_x p_w p_nw p_inds]; (split; [exact Et|split; [exact Ex|split; [|split]]]);
      rewrite ?col_map_mat, ?C1, ?C2 by assumption; rewrite ?Ew; try reflexivity.
    - apply col_ext; [cbn; congruence|reflexivity].
    - exact Ei.
  Qed.

  Lemma sisr_correct_columns r1 r2 y n b1 b2 (p1 p2 : pred X) (d1 d2 : nat -> D) ft fx fw j1 j2 :
    0 < n -> pred_ok lowest n b1 p1 -> pred_ok lowest n b2 p2 -> j1 < b1 -> j2 < b2 ->
    columnwise_proposal o1 r1 d1 ft fx fw -> columnwise_proposal o2 r2 d2 ft fx fw -> d1 j1 = d2 j2 ->
    same_prediction p1 j1 p2 j2 ->
    exists c1 c2, sisr_correct lowest o1 r1 y p1 = Ok c1 /\ sisr_correct lowest o2 r2 y p2 = Ok c2 /\ same_filter c1 j1 c2 j2.
  Proof.
    intros Hn [[X11 X12] [W11 W12] F1 [N11 N12] _ _] [[X21 X22] [W21 W22] F2 [N21 N22] _ _] Hj1 Hj2 P1 P2 Ed (Et & Ex & Ew & En & Ei).
    unfold sisr_correct.
    specialize (P1 y (p_x p1) (p_w p1) (p_nw p1)). specialize (P2 y (p_x p2) (p_w p2) (p_nw p2)). cbn zeta in *.
    destruct (sample_and_weight o1 _ _ _ _ _) as [x1 v1]. destruct (sample_and_weight o2 _ _ _ _ _) as [x2 v2]. cbn [fst snd] in *.
    destruct P1 as (T1 & [A1 A1'] & [B1 B1'] & C1). destruct P2 as (T2 & [A2 A2'] & [B2 B2'] & C2).
    specialize (C1 j1 ltac:(lia)). specialize (C2 j2 ltac:(lia)). destruct C1 as [C1 V1]. destruct C2 as [C2 V2].
    rewrite Ed, Et, Ex, Ew, En in C1. rewrite Ed, Et, Ex, Ew, En in V1.
    assert (EV : col v1 j1 = col v2 j2) by congruence.
    unfold loglik_mat. destruct (Nat.eqb_spec (m_rows v1) 0); [lia|]. destruct (Nat.eqb_spec (m_rows v2) 0); [lia|]. cbn [bind].
    rewrite !mk_corr_spec by (cbn; lia). do 2 eexists. split; [reflexivity|]. split; [reflexivity|].
    unfold same_filter; cbn [c_x c_w c_ll c_inds].
    split; [congruence|]. split; [congruence|]. split; [|split; [|exact Ei]].
    - rewrite !col_map_mat, !zip_col by lia. now rewrite EV, Ew.
    - now rewrite EV, En.
  Qed.

  Lemma gpf_correct_columns r1 r2 y n b1 b2 (p1 p2 : pred X) (d1 d2 : nat -> D) ft fx fw j1 j2 :
    0 < n -> pred_ok lowest n b1 p1 -> pred_ok lowest n b2 p2 -> j1 < b1 -> j2 < b2 ->
    columnwise_proposal o1 r1 d1 ft fx fw -> columnwise_proposal o2 r2 d2 ft fx fw -> d1 j1 = d2 j2 ->
    same_prediction p1 j1 p2 j2 ->
    exists c1 c2, gpf_correct lowest o1 r1 y p1 = Ok c1 /\ gpf_correct lowest o2 r2 y p2 = Ok c2 /\ same_filter c1 j1 c2 j2.
  Proof.
    intros Hn [[X11 X12] [W11 W12] F1 [N11 N12] _ _] [[X21 X22] [W21 W22] F2 [N21 N22] _ _] Hj1 Hj2 P1 P2 Ed (Et & Ex & Ew & En & Ei).
    unfold gpf_correct.
    specialize (P1 y (p_x p1) (p_w p1) (p_nw p1)). specialize (P2 y (p_x p2) (p_w p2) (p_nw p2)). cbn zeta in *.
    destruct (sample_and_weight o1 _ _ _ _ _) as [x1 v1]. destruct (sample_and_weight o2 _ _ _ _ _) as [x2 v2]. cbn [fst snd] in *.
    destruct P1 as (T1 & [A1 A1'] & [B1 B1'] & C1). destruct P2 as (T2 & [A2 A2'] & [B2 B2'] & C2).
    specialize (C1 j1 ltac:(lia)). specialize (C2 j2 ltac:(lia)). destruct C1 as [C1 V1]. destruct C2 as [C2 V2].
    rewrite Ed, Et, Ex, Ew, En in C1. rewrite Ed, Et, Ex, Ew, En in V1.
    assert (EV : col v1 j1 = col v2 j2) by congruence.
    unfold loglik_mat. destruct (Nat.eqb_spec (m_rows v1) 0); [lia|]. destruct (Nat.eqb_spec (m_rows v2) 0); [lia|]. cbn [bind].
    rewrite !mk_corr_spec by (cbn; lia). do 2 eexists. split; [reflexivity|]. split; [reflexivity|].
    unfold same_filter; cbn [c_x c_w c_ll c_inds].
    split; [congruence|]. split; [congruence|]. split; [|split; [|exact Ei]].
    - now rewrite !col_map_mat, EV.
    - now rewrite EV.
  Qed.

  Lemma apf_correct_columns {E} r1 r2 y n b1 b2 (p1 p2 : pred X) (d1 d2 : nat -> D) ft fx fw
    (e1 e2 : nat -> E) f fg j1 j2 :
    0 < n -> pred_ok lowest n b1 p1 -> pred_ok lowest n b2 p2 -> j1 < b1 -> j2 < b2 ->
    columnwise_proposal o1 r1 d1 ft fx fw -> columnwise_proposal o2 r2 d2 ft fx fw -> d1 j1 = d2 j2 ->
    columnwise_resampler o1 r1 false e1 f -> columnwise_resampler o2 r2 false e2 f -> e1 j1 = e2 j2 ->
    columnwise_preweight o1 fg -> columnwise_preweight o2 fg ->
    same_prediction p1 j1 p2 j2 ->
    exists c1 c2, apf_correct lowest o1 r1 y p1 = Ok c1 /\ apf_correct lowest o2 r2 y p2 = Ok c2 /\ same_filter c1 j1 c2 j2.
  Proof.
    intros Hn [[X11 X12] [W11 W12] F1 [N11 N12] _ _] [[X21 X22] [W21 W22] F2 [N21 N22] _ _] Hj1 Hj2 P1 P2 Ed R1 R2 Ee G1 G2 (Et & Ex & Ew & En & Ei).
    unfold apf_correct.
    destruct (G1 y (p_x p1)) as [[g11 g12] g13]. destruct (G2 y (p_x p2)) as [[g21 g22] g23].
    set (g1 := pre_weight o1 y (p_x p1)) in *. set (g2 := pre_weight o2 y (p_x p2)) in *.
    specialize (g13 j1 ltac:(lia)). specialize (g23 j2 ltac:(lia)).
    assert (Eg : col g1 j1 = col g2 j2) by congruence.
    destruct (R1 (zip_mat xadd g1 (p_w p1)) ltac:(cbn; lia)) as (i1 & -> & [I11 I12] & I13 & I14).
    destruct (R2 (zip_mat xadd g2 (p_w p2)) ltac:(cbn; lia)) as (i2 & -> & [I21 I22] & I23 & I24). cbn [bind].
    cbn [zip_mat m_rows m_cols] in I11, I12, I13, I14, I21, I22, I23, I24.
    assert (Es : col i1 j1 = col i2 j2).
    { rewrite I14, I24 by lia. rewrite Ee. f_equal. rewrite !zip_col by lia. now rewrite Eg, Ew. }
    destruct (batched_gather_spec (ts_val (p_x p1)) i1) as (vals1 & -> & [U11 U12] & _ & U14); [lia|now rewrite <- g11|].
    destruct (batched_gather_spec (ts_val (p_x p2)) i2) as (vals2 & -> & [U21 U22] & _ & U24); [lia|now rewrite <- g21|]. cbn [bind].
    assert (Ev : col vals1 j1 = col vals2 j2).
    { rewrite U14, U24, Es. apply map_ext_in. intros a Ha. apply (col_eq_get _ _ j1 j2 Ex); [lia|].
      apply in_col in Ha. destruct Ha as (i & Hi & <-). rewrite X11, <- X21, <- g21. apply I23; lia. }
    set (z1 := map_mat (fun _ => Fin 0) g1). set (z2 := map_mat (fun _ => Fin 0) g2).
    set (u1 := map_mat _ z1). set (u2 := map_mat _ z2).
    assert (Ez : col z1 j1 = col z2 j2) by (unfold z1, z2; now rewrite !col_map_mat, Eg).
    assert (Eu : col u1 j1 = col u2 j2).
    { unfold u1, u2. rewrite !col_map_mat, Ez. replace (m_rows g1) with (m_rows g2) by lia. reflexivity. }
    specialize (P1 y (TS (ts_time (p_x p1)) vals1) z1 u1). specialize (P2 y (TS (ts_time (p_x p2)) vals2) z2 u2). cbn zeta in *.
    destruct (sample_and_weight o1 _ _ _ _ _) as [x1 v1]. destruct (sample_and_weight o2 _ _ _ _ _) as [x2 v2]. cbn [fst snd ts_val ts_time] in *.
    destruct P1 as (T1 & [A1 A1'] & [B1 B1'] & C1). destruct P2 as (T2 & [A2 A2'] & [B2 B2'] & C2).
    specialize (C1 j1 ltac:(lia)). specialize (C2 j2 ltac:(lia)). destruct C1 as [C1 V1]. destruct C2 as [C2 V2].
    rewrite Ed, Et, Ev, Ez, Eu in C1. rewrite Ed, Et, Ev, Ez, Eu in V1.
    assert (EV : col v1 j1 = col v2 j2) by congruence.
    destruct (batched_gather_spec g1 i1) as (gg1 & -> & [GG11 GG12] & _ & GG13); [lia|exact I13|].
    destruct (batched_gather_spec g2 i2) as (gg2 & -> & [GG21 GG22] & _ & GG23); [lia|exact I23|]. cbn [bind].
    assert (EGG : col gg1 j1 = col gg2 j2).
    { rewrite GG13, GG23, Es. apply map_ext_in. intros a Ha. apply (col_eq_get _ _ j1 j2 Eg); [lia|].
      apply in_col in Ha. destruct Ha as (i & Hi & <-). rewrite g11, X11, <- X21, <- g21. apply I23; lia. }
    unfold loglik_mat. destruct (Nat.eqb_spec (m_rows (zip_mat xsub v1 gg1)) 0) as [Z|]; [cbn in Z; lia|].
    destruct (Nat.eqb_spec (m_rows (zip_mat xsub v2 gg2)) 0) as [Z|]; [cbn in Z; lia|]. cbn [bind].
    rewrite !mk_corr_spec by (cbn; lia). do 2 eexists. split; [reflexivity|]. split; [reflexivity|].
    unfold same_filter; cbn [c_x c_w c_ll c_inds].
    split; [congruence|]. split; [congruence|].
    assert (EZ : col (zip_mat xsub v1 gg1) j1 = col (zip_mat xsub v2 gg2) j2) by (rewrite !zip_col by lia; now rewrite EV, EGG).
    split; [|split; [|exact Es]].
    - now rewrite !col_map_mat, EZ.
    - now rewrite EZ, En, Eg.
  Qed.
End Columns.
