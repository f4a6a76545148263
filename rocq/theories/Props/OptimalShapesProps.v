(** C91: the kernel of the linear proposal for scalar and vector states and observations, and any batch of parameters. *)
From Coq Require Import List Arith Bool Reals Lia Lra.
From Verif.Model Require Import Base Shaped ShapedCode.
From Verif.Spec Require Import ShapedSpec.
From Verif.Proofs Require Import ShapedProofs.
Import ListNotations.
Local Open Scope nat_scope.

Lemma diag_plus : forall n bs dp cp t c f g, shp dp = n :: n :: cp -> shp t = n :: n :: c ->
  reads dp (n :: n :: bs) f -> reads t (n :: n :: bs) g ->
  exists v cv, tadd dp t = Ok v /\ shp v = n :: n :: cv /\ reads v (n :: n :: bs) (fun i => f i + g i)%R.
Proof.
  intros n bs dp cp t c f g Sd St Rd Rt. destruct (lift2_reads Rplus _ _ _ _ _ Rd Rt) as (v & E & R & _).
  exists v. unfold lift2 in E. rewrite Sd, St in E. cbn [bshape] in E.
  destruct (bshape cp c) as [r|] eqn:B; [|discriminate E]. cbn [bind] in E. rewrite !Nat.eqb_refl in E. cbn [bind] in E.
  exists r.
  unfold tadd, lift2. rewrite Sd, St. cbn [bshape]. rewrite B. cbn [bind]. rewrite !Nat.eqb_refl. cbn [bind].
  split. exact E. injection E as <-. split. reflexivity. exact R.
Qed.

(** Lines 246-262 after the arguments have been given their vector form. *)
Lemma optimal_core : forall inv h k bs fp fq fc fm fy c sc ct oic co dp cp t1 t2 s2, looks_inside inv ->
  reads c (h :: k :: bs) fc -> shp c = h :: k :: sc ->
  transpose21 c = Ok ct ->
  shp oic = k :: k :: co -> reads oic (k :: k :: bs) (diagonal fq) ->
  shp dp = h :: h :: cp -> reads dp (h :: h :: bs) (diagonal fp) ->
  holds t1 (h :: bs) (fun i => fp i * fm i)%R ->
  shp t2 = k :: s2 -> reads t2 (k :: bs) (fun i => fq i * fy i)%R ->
  exists w t2' prec cov t3 t4 mean cc,
    tmatmul ct oic = Ok w /\ tmatmul w c = Ok t2' /\ tadd dp t2' = Ok prec /\ tinverse inv prec = Ok cov
    /\ tmatmul ct (unsqueeze1 t2) = Ok t3 /\ tadd (unsqueeze1 t1) t3 = Ok t4 /\ tmatmul cov t4 = Ok mean
    /\ shp cov = h :: h :: cc
    /\ reads cov (h :: h :: bs) (fun i => match i with j :: i' :: b => inv h (posterior_precision k fp fq fc b) i' j | _ => 0%R end)
    /\ holds (squeeze1 mean) (h :: bs) (fun i => match i with j :: b => posterior_mean h k inv fp fq fc fm fy j b | [] => 0%R end).
Proof.
  intros inv h k bs fp fq fc fm fy c sc ct oic co dp cp t1 t2 s2 Li Rc Sc Ec So Ro Sp Rp H1 S2 R2.
  destruct (transpose21_reads c h k bs _ sc Rc Sc) as (ct' & Ec' & St & Rt). rewrite Ec in Ec'. injection Ec' as <-.
  destruct (tmatmul_reads ct oic k h k bs _ _ _ _ St So Rt Ro) as (w & c1 & E1 & S3 & X1 & R3).
  destruct (tmatmul_reads w c k h h bs _ _ _ _ S3 Sc R3 Rc) as (t2' & c2 & E2 & S4 & X2 & R4).
  destruct (diag_plus h bs dp cp t2' c2 _ _ Sp S4 Rp R4) as (prec & cv & E3 & S5 & R5).
  assert (R5' : reads prec (h :: h :: bs) (fun i => match i with j :: i' :: b => posterior_precision k fp fq fc b i' j | _ => 0%R end)).
  { eapply reads_ext. exact R5. intros [|j [|i b]] Hi; cbn in Hi; [contradiction|tauto|]. cbn [diagonal]. unfold posterior_precision.
    f_equal. rewrite (Nat.eqb_sym i j). destruct (Nat.eqb_spec j i); [subst|]; reflexivity.
    apply total_ext. intros l L.
    rewrite total_pick with (g := fun q => fc (i :: q :: b)) (v := fun q => fq (q :: b)) by auto. reflexivity. }
  assert (X : exists cov, tinverse inv prec = Ok cov /\ shp cov = h :: h :: cv
            /\ reads cov (h :: h :: bs) (fun i => match i with j :: i' :: b => inv h (posterior_precision k fp fq fc b) i' j | _ => 0%R end)).
  { unfold tinverse. rewrite S5, Nat.eqb_refl. eexists. split. reflexivity. split. reflexivity.
    destruct R5' as [G5 V5]. rewrite S5 in G5, V5. split. cbn. repeat constructor. do 2 apply stretches_tail in G5. exact G5.
    assert (N1 : forall x, x < h -> (if h =? 1 then 0 else x) = x).
    { intros x L. destruct (Nat.eqb_spec h 1); auto. lia. }
    intros [|j [|i b]] Hi; cbn in Hi; [contradiction|tauto|]. destruct Hi as (A & B & C).
    cbn [shp]. rewrite !shrink_cons, !N1 by auto. cbn [entry]. apply Li; auto.
    intros p q Lp Lq. specialize (V5 (q :: p :: b) (conj Lq (conj Lp C))). rewrite !shrink_cons, !N1 in V5 by auto. exact V5. }
  destruct X as (cov & E4 & S6 & R6).
  assert (S2' : shp (unsqueeze1 t2) = 1 :: k :: s2) by (cbn; rewrite S2; reflexivity).
  destruct (tmatmul_reads ct (unsqueeze1 t2) k h 1 bs _ _ _ _ St S2' Rt (unsqueeze1_reads _ _ _ 1 R2)) as (t3 & c3 & E5 & S7 & X3 & R7).
  destruct (lift2_holds Rplus (unsqueeze1 t1) t3 (1 :: h :: bs) _ _ (unsqueeze1_reads _ _ _ 1 (holds_reads _ _ _ H1)) R7) as (t4 & E6 & H4).
  { left. cbn. rewrite (holds_cut _ _ _ H1). reflexivity. }
  destruct (tmatmul_reads cov t4 h h 1 bs _ _ _ bs S6 (holds_cut _ _ _ H4) R6 (holds_reads _ _ _ H4)) as (mean & c5 & E7 & S8 & X5 & R8).
  rewrite (X5 (or_intror eq_refl)) in S8.
  destruct (squeeze1_reads mean (h :: bs) _ (h :: bs) R8 S8) as [R9 S9].
  exists w, t2', prec, cov, t3, t4, mean, cv. do 7 (split; [assumption|]). split. exact S6. split. exact R6.
  eapply holds_ext. apply (reads_exact _ _ _ R9 S9).
  intros [|j b] Hi; cbn in Hi; [contradiction|]. unfold posterior_mean. apply total_ext. intros l L. cbn [tl]. reflexivity.
Qed.

(** What the parameters say: [fm], [fh] mean and scale of the hidden process, [fs] the scale of the observations. *)
Definition inverse_variance (f : list nat -> R) (i : list nat) : R := (/ f i ^ 2)%R.

(** Line 260 for an observation without batch dimensions. *)
Lemma centred_observation : forall k bs fq fy fo oic co d, shp oic = k :: k :: co -> reads oic (k :: k :: bs) (diagonal fq) ->
  holds d [k] (fun i => fy i - fo i)%R ->
  exists t2 s2, tmatmul oic d = Ok t2 /\ shp t2 = k :: s2 /\ reads t2 (k :: bs) (fun i => fq i * (fy (firstn 1 i) - fo (firstn 1 i)))%R.
Proof.
  intros k bs fq fy fo oic co d So Ro Hd.
  destruct Hd as [Sd Vd].
    assert (Rd : reads (unsqueeze1 d) (1 :: k :: bs) (fun i => match i with _ :: j :: _ => fy [j] - fo [j] | _ => 0 end)%R).
    { split. cbn. rewrite Sd. repeat constructor. intros [|z [|j b]] Hi; cbn in Hi; [contradiction|tauto|]. destruct Hi as (A & B & C).
      cbn [shp unsqueeze1 entry]. rewrite Sd, !shrink_cons. cbn [tl shrink Nat.eqb]. destruct (Nat.eqb_spec k 1).
      - subst k. replace j with 0 by lia. rewrite Vd by (cbn; lia). destruct b; reflexivity.
      - rewrite Vd by (cbn; lia). destruct b; reflexivity. }
    assert (Su : shp (unsqueeze1 d) = [1; k]) by (cbn; rewrite Sd; reflexivity).
    destruct (matmul2_reads oic (unsqueeze1 d) k k 1 bs _ _ co [] So Su Ro Rd) as (v & c & E & S2 & _ & R2).
    exists (squeeze1 v), c. split.
    { unfold tmatmul. rewrite So, Sd. cbn [shp]. destruct co; rewrite E; reflexivity. }
    destruct (squeeze1_reads v (k :: bs) _ (k :: c) R2 S2) as [R3 S3]. split. exact S3.
    eapply reads_ext. exact R3. intros [|j b] Hi; cbn in Hi; [contradiction|]. destruct Hi as [A B].
    cbn [diagonal firstn]. rewrite total_pick' with (g := fun l => (fy [l] - fo [l])%R) by auto. reflexivity.
Qed.

(** Vector states with vector observations, the offset having no batch dimension. *)
Theorem C91_vectors_partial : forall inv h k bs fm fh fa fs fy fo y mean scale a offset s, looks_inside inv ->
  holds mean (h :: bs) fm -> reads scale (h :: bs) fh -> reads s (k :: bs) fs ->
  reads a (h :: k :: bs) fa -> (exists sa, shp a = h :: k :: sa) ->
  holds y [k] (fun i => fy i) -> reads offset [k] (fun i => fo i) ->
  exists loc cov, linear_kernel inv [h] [k] y mean scale a offset s = Ok (KMultivariate loc cov)
    /\ holds loc (h :: bs) (fun i => match i with
         | j :: b => posterior_mean h k inv (inverse_variance fh) (inverse_variance fs) fa fm (fun i => fy (firstn 1 i) - fo (firstn 1 i))%R j b
         | [] => 0%R end)
    /\ holds cov (h :: h :: bs) (fun i => match i with
         | j :: i' :: b => inv h (posterior_precision k (inverse_variance fh) (inverse_variance fs) fa b) i' j | _ => 0%R end).
Proof.
  intros inv h k bs fm fh fa fs fy fo y mean scale a offset s Li Hm Hh Hs Ha (sa & Sa) Hy Hf.
  unfold linear_kernel.
  destruct (lift2_holds Rminus y offset [k] _ _ (holds_reads _ _ _ Hy) Hf (or_introl (holds_cut _ _ _ Hy))) as (d & Ed & Hd).
  unfold tsub. rewrite Ed. cbn [bind]. unfold optimal_kernel. cbn [bind].
  pose proof (lift1_reads (fun v => / v ^ 2)%R _ _ _ Hh) as Hp. pose proof (lift1_reads (fun v => / v ^ 2)%R _ _ _ Hs) as Hq.
  destruct (transpose21_reads a h k bs _ sa Ha Sa) as (ct & Et & St & Rt). rewrite Et. cbn [bind].
  destruct (construct_diag_vector _ _ _ _ Hq) as (oic & co & Eo & So & _ & Ro). rewrite Eo. cbn [bind].
  destruct (construct_diag_vector _ _ _ _ Hp) as (dp & cp & Ep & Sp & _ & Rp).
  destruct (lift2_holds Rmult _ _ _ _ _ Hp (holds_reads _ _ _ Hm) (or_intror (holds_cut _ _ _ Hm))) as (t1 & E1 & H1).
  destruct (centred_observation k bs _ fy fo oic co d So Ro Hd) as (t2 & s2 & E2 & S2 & R2).
  destruct (optimal_core inv h k bs (inverse_variance fh) (inverse_variance fs) fa fm (fun i => fy (firstn 1 i) - fo (firstn 1 i))%R a sa ct oic co dp cp t1 t2 s2
              Li Ha Sa Et So Ro Sp Rp H1 S2 R2) as (w & t2' & prec & cov & t3 & t4 & mn & cc & F1 & F2 & F3 & F4 & F5 & F6 & F7 & Sc & Rc & Hmn).
  rewrite F1. cbn [bind]. rewrite F2. cbn [bind]. rewrite Ep. cbn [bind]. rewrite F3. cbn [bind]. rewrite F4. cbn [bind].
  unfold tmul. rewrite E1. cbn [bind]. rewrite E2. cbn [bind]. rewrite F5. cbn [bind]. rewrite F6. cbn [bind]. rewrite F7. cbn [bind].
  destruct (make_mvn_holds (squeeze1 mn) cov h bs _ _ cc bs (holds_cut _ _ _ Hmn) Sc (holds_reads _ _ _ Hmn) Rc (or_introl eq_refl))
    as (l & v & E7 & H7 & H8).
  exists l, v. split. exact E7. split. exact H7. exact H8.
Qed.
Print Assumptions C91_vectors_partial.

(** Vector states with scalar observations; here the offset, too, may have batch dimensions. *)
Theorem C91_scalar_observation_partial : forall inv h bs fm fh fa fs fy fo y mean scale a offset s, looks_inside inv ->
  holds mean (h :: bs) fm -> reads scale (h :: bs) fh -> reads s bs fs ->
  reads a (h :: bs) fa -> (exists sa, shp a = h :: sa) ->
  reads y bs fy -> reads offset bs fo ->
  exists loc cov, linear_kernel inv [h] [] y mean scale a offset s = Ok (KMultivariate loc cov)
    /\ holds loc (h :: bs) (fun i => match i with
         | j :: b => posterior_mean h 1 inv (inverse_variance fh) (fun i => inverse_variance fs (tl i)) (fun i => fa (tl2 i)) fm
                       (fun i => fy (tl i) - fo (tl i))%R j b
         | [] => 0%R end)
    /\ holds cov (h :: h :: bs) (fun i => match i with
         | j :: i' :: b => inv h (posterior_precision 1 (inverse_variance fh) (fun i => inverse_variance fs (tl i)) (fun i => fa (tl2 i)) b) i' j
         | _ => 0%R end).
Proof.
  intros inv h bs fm fh fa fs fy fo y mean scale a offset s Li Hm Hh Hs Ha (sa & Sa) Hy Hf.
  unfold linear_kernel.
  destruct (lift2_reads Rminus y offset bs _ _ Hy Hf) as (d & Ed & Hd & _).
  unfold tsub. rewrite Ed. cbn [bind]. unfold optimal_kernel. cbn [bind].
  destruct (unsqueeze2_reads a h bs _ 1 Ha) as (au & Eu & Ru & _). { eexists. eexists. exact Sa. }
  assert (Su : shp au = h :: 1 :: sa) by (unfold unsqueeze2 in Eu; rewrite Sa in Eu; injection Eu as <-; reflexivity).
  rewrite Eu. cbn [bind].
  pose proof (lift1_reads (fun v => / v ^ 2)%R _ _ _ Hh) as Hp. pose proof (lift1_reads (fun v => / v ^ 2)%R _ _ _ Hs) as Hq.
  destruct (transpose21_reads au h 1 bs _ sa Ru Su) as (ct & Et & St & Rt). rewrite Et. cbn [bind].
  destruct (construct_diag_scalar _ _ _ Hq) as (oic & Eo & So & Ro). rewrite Eo. cbn [bind].
  destruct (construct_diag_vector _ _ _ _ Hp) as (dp & cp & Ep & Sp & _ & Rp).
  destruct (lift2_holds Rmult _ _ _ _ _ Hp (holds_reads _ _ _ Hm) (or_intror (holds_cut _ _ _ Hm))) as (t1 & E1 & H1).
  assert (Ro' : reads oic (1 :: 1 :: bs) (diagonal (fun i => inverse_variance fs (tl i)))).
  { eapply reads_ext. exact Ro. intros [|j [|i b]] Hi; cbn in Hi; [contradiction|tauto|]. cbn.
    replace j with 0 by lia. replace i with 0 by lia. reflexivity. }
  destruct (squeeze1_reads oic (1 :: bs) _ _ Ro So) as [Rs Ss].
  destruct (lift2_reads Rmult (squeeze1 oic) (unsqueeze1 d) (1 :: bs) _ _ Rs (unsqueeze1_reads _ _ _ 1 Hd)) as (t2 & E2 & R2 & _).
  assert (S2 : exists s2, shp t2 = 1 :: s2).
  { unfold lift2 in E2. rewrite Ss in E2. cbn [shp unsqueeze1 bshape] in E2.
    destruct (bshape _ (shp d)) as [r|]; [|discriminate E2]. cbn [bind Nat.eqb] in E2. injection E2 as <-. eexists. reflexivity. }
  destruct S2 as (s2 & S2).
  destruct (optimal_core inv h 1 bs (inverse_variance fh) (fun i => inverse_variance fs (tl i)) (fun i => fa (tl2 i)) fm (fun i => fy (tl i) - fo (tl i))%R
              au sa ct oic _ dp cp t1 t2 s2 Li Ru Su Et So Ro' Sp Rp H1 S2 R2)
    as (w & t2' & prec & cov & t3 & t4 & mn & cc & F1 & F2 & F3 & F4 & F5 & F6 & F7 & Sc & Rc & Hmn).
  rewrite F1. cbn [bind]. rewrite F2. cbn [bind]. rewrite Ep. cbn [bind]. rewrite F3. cbn [bind]. rewrite F4. cbn [bind].
  unfold tmul. rewrite E1. cbn [bind]. rewrite E2. cbn [bind]. rewrite F5. cbn [bind]. rewrite F6. cbn [bind]. rewrite F7. cbn [bind].
  destruct (make_mvn_holds (squeeze1 mn) cov h bs _ _ cc bs (holds_cut _ _ _ Hmn) Sc (holds_reads _ _ _ Hmn) Rc (or_introl eq_refl))
    as (l & v & E7 & H7 & H8).
  exists l, v. split. exact E7. split. exact H7. exact H8.
Qed.
Print Assumptions C91_scalar_observation_partial.

(** Scalar states with scalar observations. *)
Theorem C91_scalars_partial : forall inv bs fm fh fa fs fy fo y mean scale a offset s, looks_inside inv ->
  holds mean bs fm -> reads scale bs fh -> reads s bs fs -> reads a bs fa -> reads y bs fy -> reads offset bs fo ->
  exists loc std, linear_kernel inv [] [] y mean scale a offset s = Ok (KNormal loc std)
    /\ holds loc bs (fun b => let v := inv 1%nat (fun _ _ => / fh b ^ 2 + fa b * / fs b ^ 2 * fa b) 0%nat 0%nat in
         v * (/ fh b ^ 2 * fm b + fa b * (/ fs b ^ 2 * (fy b - fo b))))%R
    /\ holds std bs (fun b => sqrt (inv 1 (fun _ _ => / fh b ^ 2 + fa b * / fs b ^ 2 * fa b)%R 0 0)).
Proof.
  intros inv bs fm fh fa fs fy fo y mean scale a offset s Li Hm Hh Hs Ha Hy Hf.
  unfold linear_kernel.
  destruct (lift2_reads Rminus y offset bs _ _ Hy Hf) as (d & Ed & Hd & _).
  unfold tsub. rewrite Ed. cbn [bind]. unfold optimal_kernel. cbn [bind].
  pose proof (unsqueeze1_reads _ _ _ 1 Ha) as Ha1.
  destruct (unsqueeze2_reads (unsqueeze1 a) 1 bs _ 1 Ha1) as (au & Eu & Ru & _). { eexists. eexists. reflexivity. }
  assert (Su : shp au = 1 :: 1 :: shp a) by (cbn in Eu; injection Eu as <-; reflexivity).
  rewrite Eu. cbn [bind].
  pose proof (lift1_reads (fun v => / v ^ 2)%R _ _ _ Hh) as Hp. pose proof (lift1_reads (fun v => / v ^ 2)%R _ _ _ Hs) as Hq.
  destruct (transpose21_reads au 1 1 bs _ _ Ru Su) as (ct & Et & St & Rt). rewrite Et. cbn [bind].
  destruct (construct_diag_scalar _ _ _ Hq) as (oic & Eo & So & Ro). rewrite Eo. cbn [bind].
  destruct (construct_diag_scalar _ _ _ Hp) as (dp & Ep & Sp & Rp).
  destruct (lift2_holds Rmult _ _ _ _ _ Hp (holds_reads _ _ _ Hm) (or_intror (holds_cut _ _ _ Hm))) as (t1 & E1 & H1).
  assert (Dg : forall v f, reads v (1 :: 1 :: bs) (fun i => f (tl (tl i))) -> reads v (1 :: 1 :: bs) (diagonal (fun i => f (tl i)))).
  { intros v f R. eapply reads_ext. exact R. intros [|j [|i b]] Hi; cbn in Hi; [contradiction|tauto|]. cbn.
    replace j with 0 by lia. replace i with 0 by lia. reflexivity. }
  destruct (squeeze1_reads oic (1 :: bs) _ _ Ro So) as [Rs Ss].
  destruct (lift2_reads Rmult (squeeze1 oic) (unsqueeze1 d) (1 :: bs) _ _ Rs (unsqueeze1_reads _ _ _ 1 Hd)) as (t2 & E2 & R2 & _).
  assert (S2 : exists s2, shp t2 = 1 :: s2).
  { unfold lift2 in E2. rewrite Ss in E2. cbn [shp unsqueeze1 bshape] in E2.
    destruct (bshape _ (shp d)) as [r|]; [|discriminate E2]. cbn [bind Nat.eqb] in E2. injection E2 as <-. eexists. reflexivity. }
  destruct S2 as (s2 & S2).
  destruct (optimal_core inv 1 1 bs (fun i => inverse_variance fh (tl i)) (fun i => inverse_variance fs (tl i)) (fun i => fa (tl (tl2 i))) (fun i => fm (tl i))
              (fun i => fy (tl i) - fo (tl i))%R
              au _ ct oic _ dp _ (unsqueeze1 t1) t2 s2 Li Ru Su Et So (Dg oic (inverse_variance fs) Ro) Sp (Dg dp (inverse_variance fh) Rp) (unsqueeze1_holds _ _ _ H1) S2 R2)
    as (w & t2' & prec & cov & t3 & t4 & mn & cc & F1 & F2 & F3 & F4 & F5 & F6 & F7 & Sc & Rc & Hmn).
  rewrite F1. cbn [bind]. rewrite F2. cbn [bind]. rewrite Ep. cbn [bind]. rewrite F3. cbn [bind]. rewrite F4. cbn [bind].
  unfold tmul. rewrite E1. cbn [bind]. rewrite E2. cbn [bind]. rewrite F5. cbn [bind]. rewrite F6. cbn [bind]. rewrite F7. cbn [bind].
  destruct (corner_reads cov 0 0 bs _ cc Rc Sc) as (v & E7 & S7 & R7). rewrite E7. cbn [bind].
  destruct (squeeze1_reads (squeeze1 mn) bs _ _ (holds_reads _ _ _ Hmn) (holds_cut _ _ _ Hmn)) as [R9 S9].
  destruct (make_normal_holds (squeeze1 (squeeze1 mn)) (lift1 sqrt v) bs _ _ R9 (lift1_reads sqrt _ _ _ R7) (or_introl S9))
    as (l & z & E8 & H8 & H9).
  assert (P : forall b, inv 1 (posterior_precision 1 (fun i => inverse_variance fh (tl i)) (fun i => inverse_variance fs (tl i)) (fun i => fa (tl (tl2 i))) b) 0 0
              = inv 1 (fun _ _ => / fh b ^ 2 + fa b * / fs b ^ 2 * fa b)%R 0 0).
  { intros b. apply Li; auto. intros p q Lp Lq. replace p with 0 by lia. replace q with 0 by lia.
    unfold posterior_precision, inverse_variance. cbn [total tl tl2 Nat.eqb]. ring. }
  exists l, z. split. exact E8. split.
  - eapply holds_ext. exact H8. intros b Hb. cbn beta iota zeta. unfold posterior_mean.
    cbn [total]. rewrite P. unfold inverse_variance. cbn [tl tl2]. ring.
  - eapply holds_ext. exact H9. intros b Hb. cbn beta iota. rewrite P. reflexivity.
Qed.
Print Assumptions C91_scalars_partial.

(** Scalar states with vector observations, the offset having no batch dimension. *)
Theorem C91_scalar_state_partial : forall inv k bs fm fh fa fs fy fo y mean scale a offset s, looks_inside inv ->
  holds mean bs fm -> reads scale bs fh -> reads s (k :: bs) fs ->
  reads a (k :: bs) fa -> (exists sa, shp a = k :: sa) ->
  holds y [k] (fun i => fy i) -> reads offset [k] (fun i => fo i) ->
  exists loc std, linear_kernel inv [] [k] y mean scale a offset s = Ok (KNormal loc std)
    /\ holds loc bs (posterior_mean 1 k inv (fun i => inverse_variance fh (tl i)) (inverse_variance fs) (fun i => fa (tl i)) (fun i => fm (tl i))
         (fun i => fy (firstn 1 i) - fo (firstn 1 i))%R 0)
    /\ holds std bs (fun b => sqrt (inv 1 (posterior_precision k (fun i => inverse_variance fh (tl i)) (inverse_variance fs) (fun i => fa (tl i)) b) 0 0)).
Proof.
  intros inv k bs fm fh fa fs fy fo y mean scale a offset s Li Hm Hh Hs Ha (sa & Sa) Hy Hf.
  unfold linear_kernel.
  destruct (lift2_holds Rminus y offset [k] _ _ (holds_reads _ _ _ Hy) Hf (or_introl (holds_cut _ _ _ Hy))) as (d & Ed & Hd).
  unfold tsub. rewrite Ed. cbn [bind]. unfold optimal_kernel. cbn [bind].
  pose proof (unsqueeze1_reads _ _ _ 1 Ha) as Ra. assert (Su : shp (unsqueeze1 a) = 1 :: k :: sa) by (cbn; rewrite Sa; reflexivity).
  pose proof (lift1_reads (fun v => / v ^ 2)%R _ _ _ Hh) as Hp. pose proof (lift1_reads (fun v => / v ^ 2)%R _ _ _ Hs) as Hq.
  destruct (transpose21_reads (unsqueeze1 a) 1 k bs _ sa Ra Su) as (ct & Et & St & Rt). rewrite Et. cbn [bind].
  destruct (construct_diag_vector _ _ _ _ Hq) as (oic & co & Eo & So & _ & Ro). rewrite Eo. cbn [bind].
  destruct (construct_diag_scalar _ _ _ Hp) as (dp & Ep & Sp & Rp).
  destruct (lift2_holds Rmult _ _ _ _ _ Hp (holds_reads _ _ _ Hm) (or_intror (holds_cut _ _ _ Hm))) as (t1 & E1 & H1).
  assert (Dg : forall v f, reads v (1 :: 1 :: bs) (fun i => f (tl (tl i))) -> reads v (1 :: 1 :: bs) (diagonal (fun i => f (tl i)))).
  { intros v f R. eapply reads_ext. exact R. intros [|j [|i b]] Hi; cbn in Hi; [contradiction|tauto|]. cbn.
    replace j with 0 by lia. replace i with 0 by lia. reflexivity. }
  destruct (centred_observation k bs _ fy fo oic co d So Ro Hd) as (t2 & s2 & E2 & S2 & R2).
  destruct (optimal_core inv 1 k bs (fun i => inverse_variance fh (tl i)) (inverse_variance fs) (fun i => fa (tl i)) (fun i => fm (tl i))
              (fun i => fy (firstn 1 i) - fo (firstn 1 i))%R
              (unsqueeze1 a) sa ct oic co dp _ (unsqueeze1 t1) t2 s2 Li Ra Su Et So Ro Sp (Dg dp (inverse_variance fh) Rp) (unsqueeze1_holds _ _ _ H1) S2 R2)
    as (w & t2' & prec & cov & t3 & t4 & mn & cc & F1 & F2 & F3 & F4 & F5 & F6 & F7 & Sc & Rc & Hmn).
  rewrite F1. cbn [bind]. rewrite F2. cbn [bind]. rewrite Ep. cbn [bind]. rewrite F3. cbn [bind]. rewrite F4. cbn [bind].
  unfold tmul. rewrite E1. cbn [bind]. rewrite E2. cbn [bind]. rewrite F5. cbn [bind]. rewrite F6. cbn [bind]. rewrite F7. cbn [bind].
  destruct (corner_reads cov 0 0 bs _ cc Rc Sc) as (v & E7 & S7 & R7). rewrite E7. cbn [bind].
  destruct (squeeze1_reads (squeeze1 mn) bs _ _ (holds_reads _ _ _ Hmn) (holds_cut _ _ _ Hmn)) as [R9 S9].
  destruct (make_normal_holds (squeeze1 (squeeze1 mn)) (lift1 sqrt v) bs _ _ R9 (lift1_reads sqrt _ _ _ R7) (or_introl S9))
    as (l & z & E8 & H8 & H9).
  exists l, z. split. exact E8. split. exact H8. exact H9.
Qed.
Print Assumptions C91_scalar_state_partial.

(** Vector observations and an offset with batch dimensions, as it has when it is one of the parameters to be inferred: it
    raises unless the last batch dimension of the offset is the number of components of the observation. *)
Theorem C91_batched_offset_refuted : forall inv h k n bs fm fh fa fs fy fo y mean scale a offset s so, looks_inside inv ->
  holds mean (h :: n :: bs) fm -> reads scale (h :: n :: bs) fh -> reads s (k :: n :: bs) fs ->
  reads a (h :: k :: n :: bs) fa -> (exists sa, shp a = h :: k :: sa) ->
  holds y [k] fy -> reads offset (k :: n :: bs) fo -> shp offset = k :: n :: so -> n <> k ->
  linear_kernel inv [h] [k] y mean scale a offset s = Raise RuntimeError.
Proof.
  intros inv h k n bs fm fh fa fs fy fo y mean scale a offset s so Li Hm Hh Hs Ha (sa & Sa) Hy Hf Sf N.
  unfold linear_kernel, tsub, lift2. rewrite (holds_cut _ _ _ Hy), Sf. cbn [bshape bind]. rewrite Nat.eqb_refl. cbn [bind].
  unfold optimal_kernel. cbn [bind].
  pose proof (lift1_reads (fun v => / v ^ 2)%R _ _ _ Hh) as Hp. pose proof (lift1_reads (fun v => / v ^ 2)%R _ _ _ Hs) as Hq.
  destruct (transpose21_reads a h k (n :: bs) _ sa Ha Sa) as (ct & Et & St & Rt). rewrite Et. cbn [bind].
  destruct (construct_diag_vector _ _ _ _ Hq) as (oic & co & Eo & So & _ & Ro). rewrite Eo. cbn [bind].
  destruct (construct_diag_vector _ _ _ _ Hp) as (dp & cp & Ep & Sp & _ & Rp).
  destruct (tmatmul_reads ct oic k h k (n :: bs) _ _ _ _ St So Rt Ro) as (w & c1 & F1 & S3 & X1 & R3).
  destruct (tmatmul_reads w a k h h (n :: bs) _ _ _ _ S3 Sa R3 Ha) as (t2' & c2 & F2 & S4 & X2 & R4).
  destruct (diag_plus h (n :: bs) dp cp t2' c2 _ _ Sp S4 Rp R4) as (prec & cv & F3 & S5 & R5).
  destruct (lift2_holds Rmult _ _ _ _ _ Hp (holds_reads _ _ _ Hm) (or_intror (holds_cut _ _ _ Hm))) as (t1 & E1 & H1).
  rewrite F1. cbn [bind]. rewrite F2. cbn [bind]. rewrite Ep. cbn [bind]. rewrite F3. cbn [bind].
  unfold tinverse. rewrite S5, Nat.eqb_refl. cbn [bind]. unfold tmul. rewrite E1. cbn [bind].
  unfold tmatmul at 1. rewrite So. cbn [shp]. unfold matmul2 at 1. rewrite So. cbn [shp].
  destruct (Nat.eqb_spec k n); [congruence|].
  destruct (bshape_cases co so) as [(r & B)|B]; destruct co; rewrite B; reflexivity.
Qed.
Print Assumptions C91_batched_offset_refuted.

(** With as many filters as components it goes through, with the wrong mean: two filters with one particle each. *)
Definition reciprocal (n : nat) (m : nat -> nat -> R) (i j : nat) : R := (/ m 0%nat 0%nat)%R.
Definition off_a : ten := Ten [1; 2] (fun _ => 1%R).
Definition off_zero : ten := Ten [2] (fun _ => 0%R).
Definition off_mean : ten := Ten [1; 2; 1] (fun _ => 0%R).
Definition off_one : ten := Ten [] (fun _ => 1%R).
Definition off_s : ten := Ten [2] (fun i => match i with 0 :: _ => 1 | _ => 1 / 2 end)%R.
Definition off_offset : ten := Ten [2; 2] (fun i => match i with [1; 0] => - (1) | _ => 0 end)%R.

Theorem C91_batched_value_refuted : exists loc cov,
  linear_kernel reciprocal [1] [2] off_zero off_mean off_one off_a off_offset off_s = Ok (KMultivariate loc cov)
  /\ shp loc = [1; 2; 1] /\ entry loc [0; 0; 0] = (1 / 6)%R
  /\ posterior_mean 1 2 reciprocal (fun _ => 1%R) (fun i => / entry off_s i ^ 2)%R (fun _ => 1%R) (fun _ => 0%R)
       (fun i => 0 - entry off_offset (firstn 2 i))%R 0 [0; 0] = (2 / 3)%R.
Proof.
  eexists. eexists. split. reflexivity. split. reflexivity. split.
  - cbn. unfold reciprocal, sum_over. cbn. field.
  - unfold posterior_mean, posterior_precision, reciprocal. cbn. field.
Qed.
Print Assumptions C91_batched_value_refuted.

Lemma reciprocal_looks : forall n m m' i j, (forall p q, p < n -> q < n -> m p q = m' p q) -> i < n -> j < n -> reciprocal n m i j = reciprocal n m' i j.
Proof. intros n m m' i j H A B. unfold reciprocal. rewrite H by lia. reflexivity. Qed.

(** A scalar hidden state of three particles in two filters, observed with noise, and the same with an offset for every filter. *)
Example C91_nonvacuous : exists loc cov,
  linear_kernel reciprocal [1] [2] off_zero (Ten [1; 3; 2] (fun _ => 1%R)) off_one off_a off_zero off_s = Ok (KMultivariate loc cov)
  /\ shp loc = [1; 3; 2] /\ entry loc [0; 2; 1] = (1 / 6)%R
  /\ linear_kernel reciprocal [1] [2] off_zero (Ten [1; 3; 2] (fun _ => 1%R)) off_one off_a (Ten [2; 3] (fun _ => 0%R)) off_s = Raise RuntimeError.
Proof.
  destruct (C91_vectors_partial reciprocal 1 2 [3; 2] (fun _ => 1%R) (fun _ => 1%R) (fun _ => 1%R) (fun i => entry off_s (firstn 1 i)) (fun _ => 0%R) (fun _ => 0%R)
              off_zero (Ten [1; 3; 2] (fun _ => 1%R)) off_one off_a off_zero off_s reciprocal_looks) as (l & c & E & [Sl Hl] & _).
  { split; reflexivity. }
  { split. constructor. reflexivity. }
  { split. repeat constructor. intros [|j b] Hi; [destruct Hi|]. reflexivity. }
  { split. repeat constructor. reflexivity. }
  { eexists. reflexivity. }
  { split; reflexivity. }
  { split. repeat constructor. reflexivity. }
  exists l, c. split. exact E. split. exact Sl. split; [|reflexivity].
  rewrite Hl by (cbn; lia). unfold posterior_mean, posterior_precision, reciprocal, inverse_variance. cbn. field.
Qed.
