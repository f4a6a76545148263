(** C89: covariance matrices of weighted particles, for vectors and any batch shape. *)
From Coq Require Import List Arith Bool Reals Lia Lra.
From Verif.Model Require Import Base Shaped ShapedCode.
From Verif.Spec Require Import ShapedSpec.
From Verif.Proofs Require Import ShapedProofs.
Import ListNotations.
Local Open Scope nat_scope.

(** The mean over the particles and the centred values. *)
Lemma centred : forall n d bs fw fx w x, holds w (bs ++ [n]) fw -> holds x (d :: bs ++ [n]) fx ->
  exists wx c, tmul (unsqueeze1 w) x = Ok wx /\ tsub x (sum0 wx) = Ok c
    /\ holds (sum0 wx) (d :: bs) (fun i => match i with j :: b => weighted_mean n fw fx b j | [] => 0%R end)
    /\ holds c (d :: bs ++ [n])
         (fun i => fx i - match removelast i with j :: b => weighted_mean n fw fx b j | [] => 0 end)%R.
Proof.
  intros n d bs fw fx w x Hw Hx.
  destruct (lift2_holds Rmult (unsqueeze1 w) x (d :: bs ++ [n]) _ _
              (unsqueeze1_reads _ _ _ d (holds_reads _ _ _ Hw)) (holds_reads _ _ _ Hx)) as (wx & E & H).
  { right. apply Hx. }
  assert (M : holds (sum0 wx) (d :: bs) (fun i => match i with j :: b => weighted_mean n fw fx b j | [] => 0%R end)).
  { apply (sum0_holds' wx (d :: bs) n _ _ H). intros [|j b] Hi; cbn in Hi; try contradiction. reflexivity. }
  destruct (lift2_holds Rminus x (sum0 wx) _ _ _ (holds_reads _ _ _ Hx) (holds_wider _ (d :: bs) n _ M)) as (c & Ec & Hc).
  { left; apply Hx. }
  exists wx, c. auto.
Qed.

(** The helper behind get_mean, get_variance and the Gaussian proposals gives the weighted mean and, when asked to, the
    covariance matrix, of every filter. *)
Theorem C89_helper_partial : forall n d bs fw fx w x keep_dim,
  holds w (bs ++ [n]) fw -> holds x (d :: bs ++ [n]) fx -> keep_dim = true \/ d <> 1 ->
  exists mean cov, mean_and_variance [d] x w true keep_dim = Ok (mean, cov)
    /\ holds mean (d :: bs) (fun i => match i with j :: b => weighted_mean n fw fx b j | [] => 0%R end)
    /\ is_covariance n d bs fw fx cov.
Proof.
  intros n d bs fw fx w x keep_dim Hw Hx K.
  destruct (centred n d bs fw fx w x Hw Hx) as (wx & c & E & Ec & M & Hc).
  unfold mean_and_variance. rewrite E. cbn [bind]. rewrite Ec. cbn [bind negb orb].
  destruct (unsqueeze2_reads c d (bs ++ [n]) _ d (holds_reads _ _ _ Hc)) as (row & Er & Rr & Sr).
  { exists d, (bs ++ [n]). apply Hc. }
  rewrite Er. cbn [bind]. specialize (Sr (proj1 Hc)).
  destruct (unsqueeze2_reads c d (bs ++ [n]) _ 1 (holds_reads _ _ _ Hc)) as (row' & Er' & Rr' & _).
  { exists d, (bs ++ [n]). apply Hc. }
  rewrite Er in Er'. injection Er' as <-.
  destruct (tmatmul_reads (unsqueeze1 c) row 1 d d (bs ++ [n]) _ _ (bs ++ [n]) (bs ++ [n])
              ltac:(cbn; rewrite (proj1 Hc); reflexivity) Sr
              (unsqueeze1_reads _ _ _ 1 (holds_reads _ _ _ Hc)) Rr') as (v & a & Ev & Sv & Sa & Rv).
  rewrite Ev. cbn [bind]. rewrite (Sa (or_introl eq_refl)) in Sv.
  assert (Sw : squeeze1 (unsqueeze1 w) = Ten (shp w) (fun i => entry w i)) by reflexivity.
  assert (Hw' : holds (squeeze1 (unsqueeze1 w)) (bs ++ [n]) fw).
  { rewrite Sw. destruct Hw as [Hs He]. split. exact Hs. cbn. exact He. }
  destruct (lift2_holds Rmult (view11 (squeeze1 (unsqueeze1 w))) v (d :: d :: bs ++ [n]) _ _
              (unsqueeze1_reads _ _ _ d (unsqueeze1_reads _ _ _ d (holds_reads _ _ _ Hw'))) Rv) as (z & Ez & Hz).
  { right. exact Sv. }
  unfold tmul. rewrite Ez. cbn [bind].
  eexists. eexists. split. reflexivity. split.
  - assert (Q : (if keep_dim then sum0 wx else squeeze1 (sum0 wx)) = sum0 wx).
    { destruct K as [->|K]. reflexivity. destruct keep_dim; auto. unfold squeeze1. rewrite (proj1 M).
      destruct d as [|[|d]]; auto. congruence. }
    rewrite Q. exact M.
  - apply (sum0_holds' z (d :: d :: bs) n _ _ Hz).
    intros [|j [|i b]] Hi; cbn in Hi; try tauto. destruct Hi as (A & B & C).
    unfold weighted_covariance. apply total_ext. intros k L.
    cbn [app tl tl2 total].
    replace (removelast (i :: b ++ [k])) with (i :: b) by (symmetry; apply (removelast_last (i :: b) k)).
    replace (removelast (j :: b ++ [k])) with (j :: b) by (symmetry; apply (removelast_last (j :: b) k)).
    cbn [app]. ring.
Qed.
Print Assumptions C89_helper_partial.

(** The variances of every component, for vectors and (as one component) for scalars. *)
Theorem C89_variance_partial : forall n d bs fw fx w x,
  holds w (bs ++ [n]) fw -> holds x (d :: bs ++ [n]) fx ->
  exists mean var, mean_and_variance [d] x w false true = Ok (mean, var)
    /\ holds mean (d :: bs) (fun i => match i with j :: b => weighted_mean n fw fx b j | [] => 0%R end)
    /\ holds var (d :: bs) (fun i => match i with j :: b => weighted_covariance n fw fx b j j | [] => 0%R end).
Proof.
  intros n d bs fw fx w x Hw Hx.
  destruct (centred n d bs fw fx w x Hw Hx) as (wx & c & E & Ec & M & Hc).
  unfold mean_and_variance. rewrite E. cbn [bind]. rewrite Ec. cbn [bind negb orb].
  destruct (lift2_holds Rmult (unsqueeze1 w) (lift1 (fun c => c ^ 2)%R c) (d :: bs ++ [n]) _ _
              (unsqueeze1_reads _ _ _ d (holds_reads _ _ _ Hw)) (lift1_reads (fun c => c ^ 2)%R _ _ _ (holds_reads _ _ _ Hc))) as (z & Ez & Hz).
  { right. apply Hc. }
  unfold tmul. rewrite Ez. cbn [bind].
  eexists. eexists. split. reflexivity. split. exact M.
  apply (sum0_holds' z (d :: bs) n _ _ Hz).
  intros [|j b] Hi; cbn in Hi; try tauto. destruct Hi as (A & C).
  unfold weighted_covariance. apply total_ext. intros k L. cbn [app tl].
  replace (removelast (j :: b ++ [k])) with (j :: b) by (symmetry; apply (removelast_last (j :: b) k)).
  cbn [app]. ring.
Qed.
Print Assumptions C89_variance_partial.

(** For a scalar state get_covariance gives the weighted variance of every filter, in a last dimension of size 1. *)
Theorem C89_scalar_partial : forall n bs fw fx w x mean var,
  holds w (bs ++ [n]) fw -> holds x (bs ++ [n]) fx ->
  mean_and_variance [] x w false true = Ok (mean, var) ->
  get_covariance [] w x var = Ok var
  /\ holds var (1 :: bs) (fun i => weighted_covariance n fw (fun i => fx (tl i)) (tl i) 0 0).
Proof.
  intros n bs fw fx w x mean var Hw Hx E. split. reflexivity.
  pose proof (unsqueeze1_holds _ _ _ Hx) as Hx'.
  destruct (C89_variance_partial n 1 bs fw (fun i => fx (tl i)) w (unsqueeze1 x) Hw Hx') as (m & v & E' & Hm & Hv).
  change (mean_and_variance [] x w false true) with (mean_and_variance [1] (unsqueeze1 x) w false true) in E.
  rewrite E' in E. injection E as _ <-. eapply holds_ext. exact Hv.
  intros [|j b] Hi; cbn in Hi; try contradiction. destruct Hi as [L _]. replace j with 0 by lia. reflexivity.
Qed.
Print Assumptions C89_scalar_partial.

(** For a vector it raises unless the dimension of the state, the number of filters and the number of particles are all the same. *)
Theorem C89_vectors_raise : forall n d bs fw fx w x var,
  holds w (bs ++ [n]) fw -> holds x (d :: bs ++ [n]) fx ->
  2 <= d -> Forall (fun m => 2 <= m) (bs ++ [n]) -> (exists m, In m (bs ++ [n]) /\ m <> d) ->
  get_covariance [d] w x var = Raise RuntimeError.
Proof.
  intros n d bs fw fx w x var [Hw _] [Hx _] D F X. unfold get_covariance, tmul, lift2.
  rewrite Hw, Hx, bshape_shift; auto.
Qed.
Print Assumptions C89_vectors_raise.

(** The expectation: for normalised weights it is the covariance matrix of every filter. *)
Definition gives_covariances : Prop := forall n d bs fw fx w x var,
  holds w (bs ++ [n]) fw -> holds x (d :: bs ++ [n]) fx -> 1 <= n -> 1 <= d ->
  (forall b, inside bs b -> total n (fun k => fw (b ++ [k])) = 1%R) ->
  exists t, get_covariance [d] w x var = Ok t /\ is_covariance n d bs fw fx t.

Definition three_particles : ten := Ten [3] (fun _ => 1 / 3)%R.
Definition three_vectors : ten := Ten [2; 3] (fun i => match i with [j; k] => INR j + INR k | _ => 0 end)%R.

Theorem C89_covariance_refuted : ~ gives_covariances.
Proof.
  intros H.
  destruct (H 3 2 [] (entry three_particles) (entry three_vectors) three_particles three_vectors three_particles) as (t & E & _);
    try (split; [reflexivity|auto]); auto.
  { intros b Hb. cbn. lra. }
  rewrite (C89_vectors_raise 3 2 [] (entry three_particles) (entry three_vectors)) in E. discriminate E.
  all: try (split; [reflexivity|auto]); auto.
  repeat constructor. exists 3. split. left; reflexivity. lia.
Qed.
Print Assumptions C89_covariance_refuted.

(** Vectors with one component: the result has a row and a column for every particle. *)
Theorem C89_one_component_refuted : forall n fw fx w x var,
  holds w [n] fw -> holds x [1; n] fx -> 2 <= n ->
  exists t, get_covariance [1] w x var = Ok t /\ shp t = [n; n].
Proof.
  intros n fw fx w x var [Hw Ew] [Hx Ex] L.
  assert (N : (n =? 1) = false) by (apply Nat.eqb_neq; lia).
  destruct n as [|[|n]]; try lia.
  destruct w as [sw ew]. destruct x as [sx ex]. cbn in Hw, Hx. subst sw sx.
  unfold get_covariance, tmul, tsub, lift2. cbn [shp bshape bind Nat.eqb].
  cbn -[sum_over]. rewrite ?Nat.eqb_refl. cbn -[sum_over]. rewrite ?Nat.eqb_refl. cbn -[sum_over]. rewrite ?Nat.eqb_refl. cbn -[sum_over].
  eexists. split. reflexivity. reflexivity.
Qed.
Print Assumptions C89_one_component_refuted.

(** As many particles as components: no exception, but the weights are spread over the components. *)
Definition two_weights : ten := Ten [2] (fun i => match i with [0] => 1 / 4 | _ => 3 / 4 end)%R.
Definition two_vectors : ten := Ten [2; 2] (fun i => match i with [0; 1] => 4 | _ => 0 end)%R.

Theorem C89_value_refuted : exists t,
  get_covariance [2] two_weights two_vectors two_weights = Ok t /\ shp t = [2; 2] /\ entry t [0; 0] = 7%R
  /\ weighted_covariance 2 (entry two_weights) (entry two_vectors) [] 0 0 = 3%R.
Proof.
  eexists. split. reflexivity. split. reflexivity. split.
  - cbn. unfold sum_over. cbn. lra.
  - cbn. unfold weighted_covariance, weighted_mean. cbn. lra.
Qed.
Print Assumptions C89_value_refuted.

(** Two filters with three particles of two components. *)
Definition six_weights : ten := Ten [2; 3] (fun i => match i with [0; _] => 1 / 3 | [_; 0] => 1 / 2 | _ => 1 / 4 end)%R.
Definition six_vectors : ten := Ten [2; 2; 3] (fun i => match i with [j; b; k] => INR j * INR k + INR b | _ => 0 end)%R.
Example C89_nonvacuous : exists mean cov, mean_and_variance [2] six_vectors six_weights true true = Ok (mean, cov)
  /\ shp cov = [2; 2; 2] /\ entry cov [1; 1; 0] = (2 / 3)%R /\ entry cov [0; 1; 0] = 0%R
  /\ get_covariance [2] six_weights six_vectors six_weights = Raise RuntimeError
  /\ holds six_weights ([2] ++ [3]) (entry six_weights) /\ holds six_vectors (2 :: [2] ++ [3]) (entry six_vectors).
Proof.
  destruct (C89_helper_partial 3 2 [2] (entry six_weights) (entry six_vectors) six_weights six_vectors true) as (m & c & E & _ & [S H]);
    try (split; [reflexivity|auto]); auto.
  exists m, c. split. exact E. split. exact S. split; [|split].
  - rewrite H by (cbn; lia). unfold weighted_covariance, weighted_mean. cbn. lra.
  - rewrite H by (cbn; lia). unfold weighted_covariance, weighted_mean. cbn. lra.
  - repeat split; auto.
Qed.
