(** C90: the look-ahead weight of the linear proposal for scalar and vector states and observations. *)
From Coq Require Import List Arith Bool Reals Lia Lra.
From Verif.Model Require Import Base Shaped ShapedCode.
From Verif.Spec Require Import ShapedSpec.
From Verif.Proofs Require Import ShapedProofs.
Import ListNotations.
Local Open Scope nat_scope.

Definition vector_pair (h k : nat) (bs : list nat) (fs fh fa fo fx : list nat -> R) (h_scale a offset s x : ten) : Prop :=
  reads h_scale (h :: bs) fh /\ reads s (k :: bs) fs /\ reads offset (k :: bs) fo
  /\ reads a (h :: k :: bs) fa /\ (exists sa, shp a = h :: k :: sa) /\ holds x (h :: bs) fx.

(** The covariance of the observation, from the tensors of lines 63-76. *)
Lemma observed_cov : forall h k bs fs fh fa h_var o_var a at_ sa,
  reads h_var (h :: bs) fh -> reads o_var (k :: bs) fs -> reads a (h :: k :: bs) fa -> shp a = h :: k :: sa ->
  reads at_ (k :: h :: bs) (fun i => match i with j :: q :: r => fa (q :: j :: r) | _ => 0%R end) -> shp at_ = k :: h :: sa ->
  forall dh ch, shp dh = h :: h :: ch -> reads dh (h :: h :: bs) (diagonal fh) ->
  forall do_ co, shp do_ = k :: k :: co -> reads do_ (k :: k :: bs) (diagonal fs) ->
  exists ah aha cov c, tmatmul a dh = Ok ah /\ tmatmul ah at_ = Ok aha /\ tadd do_ aha = Ok cov
    /\ shp cov = k :: k :: c /\ (ch = bs -> c = bs)
    /\ reads cov (k :: k :: bs) (fun i => match i with
         | j :: i' :: b => ((if j =? i' then fs (i' :: b) else 0) + total h (fun l => fa (l :: i' :: b) * fh (l :: b) * fa (l :: j :: b)))%R
         | _ => 0%R end).
Proof.
  intros h k bs fs fh fa h_var o_var a at_ sa Hh Ho Ha Sa Hat Sat dh ch Sdh Hdh do_ co Sdo Hdo.
  destruct (tmatmul_reads a dh h k h bs _ _ _ _ Sa Sdh Ha Hdh) as (ah & c1 & E1 & S1 & X1 & R1).
  destruct (tmatmul_reads ah at_ h k k bs _ _ _ _ S1 Sat R1 Hat) as (aha & c2 & E2 & S2 & X2 & R2).
  destruct (lift2_reads Rplus do_ aha _ _ _ Hdo R2) as (cov & E3 & R3 & X3).
  exists ah, aha, cov.
  assert (X : exists c, shp cov = k :: k :: c /\ (c2 = bs -> c = bs)).
  { unfold lift2 in E3. rewrite Sdo, S2 in E3. cbn [bshape] in E3.
    destruct (bshape co c2) as [r|] eqn:B; [|discriminate E3]. cbn [bind] in E3. rewrite !Nat.eqb_refl in E3. cbn [bind] in E3.
    injection E3 as <-. cbn [shp]. eexists. split. reflexivity.
    intros ->. destruct Hdo as [Hd _]. rewrite Sdo in Hd. do 2 apply stretches_tail in Hd.
    destruct (bshape_exact _ _ Hd) as [_ Y]. congruence. }
  destruct X as (c & S3 & X4). exists c. split. exact E1. split. exact E2. split. exact E3. split. exact S3. split. { intros Z. apply X4, X2. left. apply X1. right. exact Z. }
  eapply reads_ext. exact R3. intros [|j [|i b]] Hi; cbn in Hi; try tauto. destruct Hi as (A & B & C).
  cbn [diagonal]. f_equal. apply total_ext. intros l L. rewrite total_pick with (g := fun q => fa (q :: i :: b)) (v := fun q => fh (q :: b)) by auto.
  reflexivity.
Qed.

(** Vector states with vector observations: one Gaussian for every particle and filter, whichever of the parameters have
    batch dimensions. *)
Theorem C90_vectors_partial : forall h k bs fs fh fa fo fx h_scale a offset s x,
  vector_pair h k bs fs fh fa fo fx h_scale a offset s x ->
  exists loc cov, linear_pre_kernel [h] [k] h_scale a offset s x = Ok (KMultivariate loc cov)
    /\ holds loc (k :: bs) (fun i => match i with j :: b => observed_mean h fo fa fx j b | [] => 0%R end)
    /\ holds cov (k :: k :: bs) (fun i => match i with j :: i' :: b => observed_covariance h fs fh fa i' j b | _ => 0%R end).
Proof.
  intros h k bs fs fh fa fo fx h_scale a offset s x (Hh & Hs & Hf & Ha & (sa & Sa) & Hx).
  unfold linear_pre_kernel. cbn [bind].
  destruct (transpose21_reads a h k bs _ sa Ha Sa) as (at_ & Et & St & Rt). rewrite Et. cbn [bind].
  pose proof (lift1_reads (fun v => v ^ 2)%R _ _ _ Hh) as Hh2. pose proof (lift1_reads (fun v => v ^ 2)%R _ _ _ Hs) as Hs2.
  destruct (construct_diag_vector _ _ _ _ Hh2) as (dh & ch & Eh & Sh & _ & Rh). rewrite Eh. cbn [bind].
  destruct (construct_diag_vector _ _ _ _ Hs2) as (do_ & co & Eo & So & _ & Ro). rewrite Eo. cbn [bind].
  destruct (observed_cov h k bs _ _ fa _ _ a at_ sa Hh2 Hs2 Ha Sa Rt St dh ch Sh Rh do_ co So Ro)
    as (ah & aha & cov & c & E1 & E2 & E3 & Sc & _ & Rc).
  rewrite E1. cbn [bind]. rewrite E2. cbn [bind]. rewrite E3. cbn [bind].
  assert (Sx : shp (unsqueeze1 x) = 1 :: h :: bs) by (cbn; rewrite (holds_cut _ _ _ Hx); reflexivity).
  destruct (tmatmul_reads a (unsqueeze1 x) h k 1 bs _ _ sa bs Sa Sx Ha (unsqueeze1_reads _ _ _ 1 (holds_reads _ _ _ Hx)))
    as (ax & c1 & E4 & S4 & X4 & R4).
  rewrite E4. cbn [bind]. rewrite (X4 (or_intror eq_refl)) in S4.
  destruct (squeeze1_reads ax (k :: bs) _ (k :: bs) R4 S4) as [R5 S5].
  destruct (lift2_holds Rplus offset (squeeze1 ax) (k :: bs) _ _ Hf R5 (or_intror S5)) as (loc & E6 & H6).
  unfold tadd at 1. rewrite E6. cbn [bind].
  destruct (make_mvn_holds loc cov k bs _ _ c bs (holds_cut _ _ _ H6) Sc (holds_reads _ _ _ H6) Rc (or_introl eq_refl))
    as (l & v & E7 & H7 & H8).
  exists l, v. split. exact E7. split.
  - eapply holds_ext. exact H7. intros [|j b] Hi; cbn in Hi; tauto.
  - eapply holds_ext. exact H8. intros [|j [|i b]] Hi; cbn in Hi; try tauto. unfold observed_covariance.
    rewrite (Nat.eqb_sym i j). reflexivity.
Qed.
Print Assumptions C90_vectors_partial.

(** Scalar states with scalar observations. *)
Theorem C90_scalars_partial : forall bs fs fh fa fo fx h_scale a offset s x,
  reads h_scale bs fh -> reads s bs fs -> reads offset bs fo -> reads a bs fa -> holds x bs fx ->
  exists loc scale, linear_pre_kernel [] [] h_scale a offset s x = Ok (KNormal loc scale)
    /\ holds loc bs (fun b => fo b + fa b * fx b)%R
    /\ holds scale bs (fun b => sqrt (fs b ^ 2 + fa b * fh b ^ 2 * fa b))%R.
Proof.
  intros bs fs fh fa fo fx h_scale a offset s x Hh Hs Hf Ha Hx.
  unfold linear_pre_kernel. cbn [bind].
  pose proof (unsqueeze1_reads _ _ _ 1 Ha) as Ha1.
  destruct (unsqueeze2_reads (unsqueeze1 a) 1 bs _ 1 Ha1) as (au & Eu & Ru & _). { eexists. eexists. reflexivity. }
  assert (Su : shp au = 1 :: 1 :: shp a) by (cbn in Eu; injection Eu as <-; reflexivity).
  rewrite Eu. cbn [bind].
  destruct (transpose21_reads au 1 1 bs _ _ Ru Su) as (at_ & Et & St & Rt). rewrite Et. cbn [bind].
  pose proof (lift1_reads (fun v => v ^ 2)%R _ _ _ Hh) as Hh2. pose proof (lift1_reads (fun v => v ^ 2)%R _ _ _ Hs) as Hs2.
  destruct (construct_diag_scalar _ _ _ Hh2) as (dh & Eh & Sh & Rh). rewrite Eh. cbn [bind].
  destruct (construct_diag_scalar _ _ _ Hs2) as (do_ & Eo & So & Ro). rewrite Eo. cbn [bind].
  assert (D : forall v f, reads v (1 :: 1 :: bs) (fun i => f (tl (tl i))) -> reads v (1 :: 1 :: bs) (diagonal (fun i => f (tl i)))).
  { intros v f R. eapply reads_ext. exact R. intros [|j [|i b]] Hi; cbn in Hi; try tauto. cbn.
    replace j with 0 by lia. replace i with 0 by lia. reflexivity. }
  destruct (observed_cov 1 1 bs (fun i => fs (tl i) ^ 2)%R (fun i => fh (tl i) ^ 2)%R (fun i => fa (tl (tl2 i))) (unsqueeze1 (lift1 (fun v => v ^ 2)%R h_scale))
              (unsqueeze1 (lift1 (fun v => v ^ 2)%R s)) au at_ (shp a)
              (unsqueeze1_reads _ _ _ 1 Hh2) (unsqueeze1_reads _ _ _ 1 Hs2) Ru Su Rt St dh _ Sh (D dh (fun b => fh b ^ 2)%R Rh) do_ _ So (D do_ (fun b => fs b ^ 2)%R Ro))
    as (ah & aha & cov & c & E1 & E2 & E3 & Sc & _ & Rc).
  rewrite E1. cbn [bind]. rewrite E2. cbn [bind]. rewrite E3. cbn [bind].
  assert (Ra : reads (squeeze1 (unsqueeze1 a)) bs fa). { exact Ha. }
  destruct (lift2_holds Rmult (squeeze1 (unsqueeze1 a)) x bs _ _ Ra (holds_reads _ _ _ Hx) (or_intror (holds_cut _ _ _ Hx))) as (ax & E4 & H4).
  unfold tmul at 1. rewrite E4. cbn [bind].
  destruct (lift2_holds Rplus offset ax bs _ _ Hf (holds_reads _ _ _ H4) (or_intror (holds_cut _ _ _ H4))) as (loc & E6 & H6).
  unfold tadd at 1. rewrite E6. cbn [bind].
  destruct (corner_reads cov 0 0 bs _ c Rc Sc) as (v & E7 & S7 & R7). rewrite E7. cbn [bind].
  destruct (make_normal_holds loc (lift1 sqrt v) bs _ _ (holds_reads _ _ _ H6) (lift1_reads sqrt _ _ _ R7) (or_introl (holds_cut _ _ _ H6)))
    as (l & z & E8 & H8 & H9).
  exists l, z. split. exact E8. split. exact H8.
  eapply holds_ext. exact H9. intros b Hb. cbn. f_equal. ring.
Qed.
Print Assumptions C90_scalars_partial.

Lemma bshape_length : forall a b r, bshape a b = Ok r -> List.length r = Nat.max (List.length a) (List.length b).
Proof.
  induction a as [|m a IH]; intros b r E. cbn in E. injection E as <-. cbn. lia.
  destruct b as [|n b]. cbn in E. injection E as <-. cbn. lia.
  cbn [bshape] in E. destruct (bshape a b) as [r'|] eqn:B; [|discriminate E]. cbn [bind] in E. specialize (IH _ _ B).
  destruct (m =? n); [|destruct (m =? 1); [|destruct (n =? 1); [|discriminate E]]]; injection E as <-; cbn; lia.
Qed.

Lemma lift2_length : forall op t u v, lift2 op t u = Ok v -> List.length (shp v) = Nat.max (List.length (shp t)) (List.length (shp u)).
Proof.
  intros op t u v E. unfold lift2 in E. destruct (bshape (shp t) (shp u)) as [r|] eqn:B; [|discriminate E].
  cbn in E. injection E as <-. cbn. apply bshape_length. exact B.
Qed.

(** A vector state with scalar observations: whatever is returned has one dimension too many to be a weight for every particle. *)
Theorem C90_scalar_observation_refuted : forall h bs h_scale a offset s x fx kern,
  holds x (h :: bs) fx -> linear_pre_kernel [h] [] h_scale a offset s x = Ok kern ->
  List.length bs < List.length (batch_of kern).
Proof.
  intros h bs h_scale a offset s x fx kern [Hx _] E. unfold linear_pre_kernel in E.
  repeat match type of E with
  | bind ?e _ = Ok _ => let v := fresh "v" in let Q := fresh "Q" in destruct e as [v|] eqn:Q; cbn [bind] in E; [|discriminate E]
  end.
  unfold make_normal in E. destruct (bshape (shp v7) (shp (lift1 sqrt v8))) as [r|] eqn:B; [|discriminate E].
  cbn in E. injection E as <-. cbn. apply bshape_length in B. apply lift2_length in Q6. apply lift2_length in Q7.
  rewrite Hx in Q6. cbn in Q6. lia.
Qed.
Print Assumptions C90_scalar_observation_refuted.

Lemma bshape_keeps : forall a b r, Forall (fun n => 2 <= n) b -> List.length a <= List.length b -> bshape a b = Ok r -> r = b.
Proof.
  induction a as [|m a IH]; intros [|n b] r F L E; cbn in L; try lia.
  - cbn in E. congruence.
  - cbn in E. congruence.
  - inversion F; subst. cbn [bshape] in E. destruct (bshape a b) as [r'|] eqn:B; [|discriminate E]. cbn [bind] in E.
    apply IH in B; auto; [|lia]. subst r'.
    destruct (Nat.eqb_spec m n). congruence. destruct (Nat.eqb_spec m 1). congruence. destruct (Nat.eqb_spec n 1). lia. discriminate E.
Qed.

Lemma stretches_length : forall a s, stretches a s -> List.length a <= List.length s.
Proof. induction 1; cbn; lia. Qed.

(** With more than one particle, filter and component it raises, unless all these numbers are the same. *)
Theorem C90_scalar_observation_raises : forall h bs fs fh fa fo fx h_scale a offset s x,
  holds h_scale (h :: bs) fh -> reads s bs fs -> reads offset bs fo ->
  reads a (h :: bs) fa -> (exists sa, shp a = h :: sa) -> holds x (h :: bs) fx ->
  2 <= h -> Forall (fun m => 2 <= m) bs -> (exists m, In m bs /\ m <> h) ->
  linear_pre_kernel [h] [] h_scale a offset s x = Raise RuntimeError.
Proof.
  intros h bs fs fh fa fo fx h_scale a offset s x Hh Hs Hf Ha (sa & Sa) Hx L F D.
  unfold linear_pre_kernel. cbn [bind].
  destruct (unsqueeze2_reads a h bs _ 1 Ha) as (au & Eu & Ru & _). { eexists. eexists. exact Sa. }
  assert (Su : shp au = h :: 1 :: sa) by (unfold unsqueeze2 in Eu; rewrite Sa in Eu; injection Eu as <-; reflexivity).
  rewrite Eu. cbn [bind].
  destruct (transpose21_reads au h 1 bs _ _ Ru Su) as (at_ & Et & St & Rt). rewrite Et. cbn [bind].
  pose proof (lift1_reads (fun v => v ^ 2)%R _ _ _ (holds_reads _ _ _ Hh)) as Hh2. pose proof (lift1_reads (fun v => v ^ 2)%R _ _ _ Hs) as Hs2.
  destruct (construct_diag_vector _ _ _ _ Hh2) as (dh & ch & Eh & Sh & Xh & Rh). rewrite Eh. cbn [bind].
  destruct (construct_diag_scalar _ _ _ Hs2) as (do_ & Eo & So & Ro). rewrite Eo. cbn [bind].
  assert (Dg : forall v f, reads v (1 :: 1 :: bs) (fun i => f (tl (tl i))) -> reads v (1 :: 1 :: bs) (diagonal (fun i => f (tl i)))).
  { intros v f R. eapply reads_ext. exact R. intros [|j [|i b]] Hi; cbn in Hi; try tauto. cbn.
    replace j with 0 by lia. replace i with 0 by lia. reflexivity. }
  destruct (observed_cov h 1 bs (fun i => fs (tl i) ^ 2)%R (fun i => fh i ^ 2)%R (fun i => fa (tl2 i)) (lift1 (fun v => v ^ 2)%R h_scale)
              (unsqueeze1 (lift1 (fun v => v ^ 2)%R s)) au at_ sa
              Hh2 (unsqueeze1_reads _ _ _ 1 Hs2) Ru Su Rt St dh _ Sh Rh do_ _ So (Dg do_ (fun b => fs b ^ 2)%R Ro))
    as (ah & aha & cov & c & E1 & E2 & E3 & Sc & Xc & Rc).
  rewrite E1. cbn [bind]. rewrite E2. cbn [bind]. rewrite E3. cbn [bind].
  specialize (Xc (Xh (holds_cut _ _ _ Hh))). subst c.
  assert (Q : squeeze1 a = a). { unfold squeeze1. rewrite Sa. destruct h as [|[|h]]; auto. lia. }
  rewrite Q.
  destruct (lift2_holds Rmult a x (h :: bs) _ _ Ha (holds_reads _ _ _ Hx) (or_intror (holds_cut _ _ _ Hx))) as (ax & E4 & H4).
  unfold tmul at 1. rewrite E4. cbn [bind].
  unfold tadd at 1, lift2. rewrite (holds_cut _ _ _ H4).
  destruct (bshape_cases (shp offset) (h :: bs)) as [(r & B)|B]; rewrite B; cbn [bind]; auto.
  apply bshape_keeps in B; [|constructor; auto|].
  2:{ destruct Hf as [Hf _]. apply stretches_length in Hf. cbn. lia. }
  subst r.
  destruct (corner_reads cov 0 0 bs _ bs Rc Sc) as (v & E7 & S7 & R7). rewrite E7. cbn [bind].
  unfold make_normal. cbn [shp lift1]. rewrite S7, bshape_comm, bshape_shift by auto. reflexivity.
Qed.
Print Assumptions C90_scalar_observation_raises.

(** A scalar state with vector observations: it raises whenever the last batch dimension (the number of particles of a single
    filter, or the number of filters) is not 1. *)
Theorem C90_scalar_state_refuted : forall k n bs fs fh fa fo fx h_scale a offset s x,
  reads h_scale (n :: bs) fh -> reads s (k :: n :: bs) fs -> reads offset (k :: n :: bs) fo ->
  reads a (k :: n :: bs) fa -> (exists sa, shp a = k :: sa) -> holds x (n :: bs) fx -> n <> 1 ->
  linear_pre_kernel [] [k] h_scale a offset s x = Raise RuntimeError.
Proof.
  intros k n bs fs fh fa fo fx h_scale a offset s x Hh Hs Hf Ha (sa & Sa) Hx N.
  unfold linear_pre_kernel. cbn [bind].
  pose proof (unsqueeze1_reads _ _ _ 1 Ha) as Ra. assert (Su : shp (unsqueeze1 a) = 1 :: k :: sa) by (cbn; rewrite Sa; reflexivity).
  destruct (transpose21_reads (unsqueeze1 a) 1 k (n :: bs) _ sa Ra Su) as (at_ & Et & St & Rt). rewrite Et. cbn [bind].
  pose proof (lift1_reads (fun v => v ^ 2)%R _ _ _ Hh) as Hh2. pose proof (lift1_reads (fun v => v ^ 2)%R _ _ _ Hs) as Hs2.
  destruct (construct_diag_scalar _ _ _ Hh2) as (dh & Eh & Sh & Rh). rewrite Eh. cbn [bind].
  destruct (construct_diag_vector _ _ _ _ Hs2) as (do_ & co & Eo & So & _ & Ro). rewrite Eo. cbn [bind].
  assert (Dg : forall v f, reads v (1 :: 1 :: n :: bs) (fun i => f (tl (tl i))) -> reads v (1 :: 1 :: n :: bs) (diagonal (fun i => f (tl i)))).
  { intros v f R. eapply reads_ext. exact R. intros [|j [|i b]] Hi; cbn in Hi; try tauto. cbn.
    replace j with 0 by lia. replace i with 0 by lia. reflexivity. }
  destruct (observed_cov 1 k (n :: bs) _ (fun i => fh (tl i) ^ 2)%R (fun i => fa (tl i)) (unsqueeze1 (lift1 (fun v => v ^ 2)%R h_scale))
              (lift1 (fun v => v ^ 2)%R s) (unsqueeze1 a) at_ sa
              (unsqueeze1_reads _ _ _ 1 Hh2) Hs2 Ra Su Rt St dh _ Sh (Dg dh (fun b => fh b ^ 2)%R Rh) do_ _ So Ro)
    as (ah & aha & cov & c & E1 & E2 & E3 & Sc & _ & Rc).
  rewrite E1. cbn [bind]. rewrite E2. cbn [bind]. rewrite E3. cbn [bind].
  assert (Sx : shp (unsqueeze1 x) = 1 :: n :: bs) by (cbn; rewrite (holds_cut _ _ _ Hx); reflexivity).
  rewrite (tmatmul_22 _ _ _ _ _ _ _ _ Su Sx). unfold matmul2. rewrite Su, Sx.
  destruct (bshape_cases sa bs) as [(r & B)|B]; rewrite B; cbn [bind]; auto.
  destruct n as [|[|n]]; auto. congruence.
Qed.
Print Assumptions C90_scalar_state_refuted.

(** Two filters with three particles: states and observations of two components, and a single number observed. *)
Definition lin_a : ten := Ten [2; 2] (fun i => match i with [0; 0] => 1 | [1; 1] => 2 | [1; 0] => 1 | _ => 0 end)%R.
Definition lin_one : ten := Ten [] (fun _ => 1%R).
Definition lin_x : ten := Ten [2; 2; 3] (fun i => match i with j :: b :: k :: _ => INR j + INR b + INR k | _ => 0 end)%R.
Lemma lin_one_reads : forall s, reads lin_one s (fun _ => 1%R).
Proof. intros s. split. constructor. reflexivity. Qed.
Lemma lin_a_reads : reads lin_a (2 :: 2 :: [2; 3]) (fun i => entry lin_a (firstn 2 i)).
Proof.
  split. repeat constructor. intros [|j [|i b]] Hi; [destruct Hi|destruct Hi as [_ []]|]. reflexivity.
Qed.
Example C90_nonvacuous : exists loc cov, linear_pre_kernel [2] [2] lin_one lin_a lin_one lin_one lin_x = Ok (KMultivariate loc cov)
  /\ shp loc = [2; 2; 3] /\ entry loc [0; 1; 2] = (1 + (3 + 4))%R /\ entry cov [1; 0; 1; 2] = 2%R
  /\ linear_pre_kernel [2] [] (Ten [2; 2; 3] (fun _ => 1%R)) (Ten [2] (fun _ => 1%R)) lin_one lin_one lin_x = Raise RuntimeError
  /\ linear_pre_kernel [] [2] lin_one (Ten [2] (fun _ => 1%R)) lin_one lin_one (Ten [2; 3] (fun _ => 1%R)) = Raise RuntimeError.
Proof.
  destruct (C90_vectors_partial 2 2 [2; 3] (fun _ => 1%R) (fun _ => 1%R) (fun i => entry lin_a (firstn 2 i)) (fun _ => 1%R) (entry lin_x)
              lin_one lin_a lin_one lin_one lin_x) as (l & c & E & [Sl Hl] & [Sc Hc]).
  { split. apply lin_one_reads. split. apply lin_one_reads. split. apply lin_one_reads. split. apply lin_a_reads.
    split. eexists. reflexivity. split. reflexivity. auto. }
  exists l, c. split. exact E. split. exact Sl. split; [|split; [|split]].
  - rewrite Hl by (cbn; lia). unfold observed_mean. cbn. lra.
  - rewrite Hc by (cbn; lia). unfold observed_covariance. cbn. lra.
  - reflexivity.
  - reflexivity.
Qed.
