From Coq Require Import Reals List Bool Lra Lia Psatz.
From Verif.Model Require Import Base Xf Weights.
From Verif.Spec Require Import WeightsSpec.
From Verif.Proofs Require Import WeightsProofs.
Import ListNotations.
Open Scope R_scope.

(** * Effective sample size *)

Lemma sq_sum_dev p : prob_vec p -> p <> [] ->
  Rsum (map (fun x => x * x) p) =
  / INR (length p) + Rsum (map (fun x => (x - / INR (length p)) * (x - / INR (length p))) p).
Proof.
  intros [_ Hs] Hne. set (n := INR (length p)).
  assert (Hn : 0 < n) by (unfold n; apply lt_0_INR; destruct p; [congruence|simpl; lia]).
  rewrite (Rsum_map_ext (fun x => (x - / n) * (x - / n)) (fun x => x * x + ((-2 * / n) * x + / n * / n))) by (intros; ring).
  rewrite !Rsum_map_plus, (Rsum_map_scale (fun x => x)), map_id, Hs, Rsum_map_const. fold n. field. lra.
Qed.

Lemma sq_sum_one p : prob_vec p ->
  1 - Rsum (map (fun x => x * x) p) = Rsum (map (fun x => x * (1 - x)) p).
Proof.
  intros [_ Hs].
  rewrite (Rsum_map_ext (fun x => x * (1 - x)) (fun x => x + (-1) * (x * x))) by (intros; ring).
  rewrite Rsum_map_plus, Rsum_map_scale, map_id, Hs. lra.
Qed.

Lemma prob_le_1 p x : prob_vec p -> In x p -> 0 <= x <= 1.
Proof. intros [Hn Hs] Hx. split; [auto|]. rewrite <- Hs. now apply Rsum_ge_elem. Qed.

Lemma get_ess_fin lowest p : prob_vec p ->
  get_ess lowest (map Fin p) true = Ok (Fin (/ Rsum (map (fun x => x * x) p)), map Fin p) /\
  0 < Rsum (map (fun x => x * x) p).
Proof.
  intros Hp.
  assert (Hpos : 0 < Rsum (map (fun x => x * x) p)).
  { destruct (prob_vec_some_pos p Hp) as (x & Hx & Hxp). apply Rsum_pos.
    - intros y Hy. apply in_map_iff in Hy. destruct Hy as (z & <- & _). nra.
    - exists (x * x). split; [|nra]. apply in_map_iff. now exists x. }
  split; [|exact Hpos]. unfold get_ess. simpl.
  rewrite map_map. rewrite (xsum_map_fin _ (fun x => x * x)) by reflexivity.
  unfold xrecip; simpl. destruct (Req_EM_T _ 0); [lra|].
  do 3 f_equal. unfold Rdiv. apply Rmult_1_l.
Qed.

Lemma ess_bounds p : prob_vec p ->
  let e := / Rsum (map (fun x => x * x) p) in
  1 <= e <= INR (length p) /\
  (e = INR (length p) <-> forall x, In x p -> x = / INR (length p)) /\
  (e = 1 <-> exists l1 l2, p = l1 ++ 1 :: l2 /\ forall x, In x (l1 ++ l2) -> x = 0).
Proof.
  intros Hp e. pose proof (prob_vec_nonempty p Hp) as Hne.
  pose proof (sq_sum_dev p Hp Hne) as Hd. pose proof (sq_sum_one p Hp) as H1.
  destruct (get_ess_fin 0 p Hp) as [_ Hpos].
  set (S := Rsum (map (fun x => x * x) p)) in *. set (n := INR (length p)) in *.
  assert (Hn : 0 < n) by (unfold n; apply lt_0_INR; destruct p; [congruence|simpl; lia]).
  set (D := Rsum (map (fun x => (x - / n) * (x - / n)) p)) in *.
  set (O := Rsum (map (fun x => x * (1 - x)) p)) in *.
  assert (HDn : forall x, In x (map (fun x => (x - / n) * (x - / n)) p) -> 0 <= x).
  { intros y Hy. apply in_map_iff in Hy. destruct Hy as (z & <- & _). apply Rle_0_sqr. }
  assert (HOn : forall x, In x (map (fun x => x * (1 - x)) p) -> 0 <= x).
  { intros y Hy. apply in_map_iff in Hy. destruct Hy as (z & <- & Hz). pose proof (prob_le_1 p z Hp Hz). nra. }
  assert (HD : 0 <= D) by now apply Rsum_nonneg. assert (HO : 0 <= O) by now apply Rsum_nonneg.
  assert (Hin : 0 < / n) by now apply Rinv_0_lt_compat.
  assert (HeS : e * S = 1) by (unfold e; apply Rinv_l; lra).
  split; [split|split].
  - unfold e. rewrite <- Rinv_1 at 1. apply Rinv_le_contravar; lra.
  - unfold e. rewrite <- (Rinv_inv n). apply Rinv_le_contravar; lra.
  - split.
    + intros He. assert (D = 0).
      { rewrite He in HeS. assert (S = / n) by (apply Rmult_eq_reg_l with n; [rewrite Rinv_r|]; lra). lra. }
      intros x Hx. assert (E : (x - / n) * (x - / n) = 0).
      { apply (Rsum_zero _ HDn H). apply in_map_iff. now exists x. }
      apply Rmult_integral in E. lra.
    + intros Hall. assert (E : D = 0).
      { unfold D. rewrite (Rsum_map_ext _ (fun _ => 0)).
        - rewrite Rsum_map_const. lra.
        - intros x Hx. rewrite (Hall x Hx). ring. }
      unfold e. rewrite Hd, E, Rplus_0_r. now rewrite Rinv_inv.
  - split.
    + intros He. assert (HOz : O = 0) by (rewrite He in HeS; lra).
      destruct (prob_vec_some_pos p Hp) as (x & Hx & Hxp).
      assert (E : x * (1 - x) = 0) by (apply (Rsum_zero _ HOn HOz); apply in_map_iff; now exists x).
      assert (x = 1) by (apply Rmult_integral in E; lra). subst x.
      apply in_split in Hx. destruct Hx as (l1 & l2 & ->). exists l1, l2. split; [reflexivity|].
      destruct Hp as [Hnn Hs].
      apply (Rsum_zero (l1 ++ l2)).
      * intros y Hy. apply Hnn. apply in_app_iff in Hy. apply in_app_iff. simpl. tauto.
      * rewrite Rsum_app in *. unfold Rsum in *. simpl in Hs. lra.
    + intros (l1 & l2 & -> & Hz).
      assert (E : S = 1); [|unfold e; rewrite E; apply Rinv_1].
      unfold S. rewrite map_app, Rsum_app. simpl.
      assert (Ez : forall l, (forall x, In x l -> x = 0) -> Rsum (map (fun x => x * x) l) = 0).
      { intros l Hl. rewrite (Rsum_map_ext _ (fun _ => 0)); [rewrite Rsum_map_const; lra|].
        intros x Hx. rewrite (Hl x Hx). ring. }
      rewrite (Ez l1) by (intros; apply Hz, in_app_iff; now left).
      unfold Rsum; simpl. fold (Rsum (map (fun x => x * x) l2)).
      rewrite (Ez l2) by (intros; apply Hz, in_app_iff; now right). lra.
Qed.

(** * Log likelihood *)

Lemma combine_map_r {A B C} (f : B -> C) (l : list A) r : combine l (map f r) = map (fun p => (fst p, f (snd p))) (combine l r).
Proof. revert r; induction l as [|a l IH]; destruct r; simpl; [reflexivity..|]. now rewrite IH. Qed.
Lemma combine_map_l {A B C} (f : A -> C) (l : list A) (r : list B) : combine (map f l) r = map (fun p => (f (fst p), snd p)) (combine l r).
Proof. revert r; induction l as [|a l IH]; destruct r; simpl; [reflexivity..|]. now rewrite IH. Qed.

Lemma rsign_scale c x : 0 < c -> rsign (c * x) = rsign x.
Proof.
  intros Hc. destruct (total_order_T x 0) as [[H|H]|H].
  - rewrite !rsign_neg; [reflexivity|assumption|nra].
  - subst. now rewrite Rmult_0_r.
  - rewrite !rsign_pos; [reflexivity|assumption|nra].
Qed.

Lemma log_unshift m t : xadd (Fin m) (xlog (Fin (exp (- m) * t))) = xlog (Fin t).
Proof.
  simpl. rewrite rsign_scale by apply exp_pos.
  unfold rsign. destruct (total_order_T t 0) as [[H|H]|H]; simpl; try reflexivity.
  rewrite ln_mult by (try apply exp_pos; assumption). rewrite ln_exp. f_equal. lra.
Qed.

Lemma log_likelihood_weighted iw W r :
  (forall x, In x iw -> clean x) -> In (Fin r) iw ->
  log_likelihood iw (Some (map Fin W)) =
  Ok (xlog (Fin (Rsum (map (fun p => fst p * lik (snd p)) (combine W iw))))).
Proof.
  intros Hc Hr. unfold log_likelihood. destruct iw as [|x0 iw']; [contradiction|]. set (iw := x0 :: iw') in *.
  destruct (xmaxl_clean iw Hc) as [[_ Hall]|(m & -> & _ & _)]; [apply Hall in Hr; discriminate|].
  f_equal. rewrite combine_map_r, combine_map_l, !map_map. simpl fst; simpl snd.
  rewrite (xsum_map_fin _ (fun p => exp (- m) * (fst p * lik (snd p)))).
  - rewrite Rsum_map_scale. apply log_unshift.
  - intros [a x] Hin. simpl fst; simpl snd. apply in_combine_r in Hin.
    rewrite exp_shift by auto. simpl. f_equal. unfold cmass, lik. destruct x; ring.
Qed.

Lemma log_likelihood_uniform iw r :
  (forall x, In x iw -> clean x) -> In (Fin r) iw ->
  log_likelihood iw None = Ok (xlog (Fin (Rsum (map (fun x => / INR (length iw) * lik x) iw)))).
Proof.
  intros Hc Hr. unfold log_likelihood. destruct iw as [|x0 iw']; [contradiction|]. set (iw := x0 :: iw') in *.
  destruct (xmaxl_clean iw Hc) as [[_ Hall]|(m & -> & _ & _)]; [apply Hall in Hr; discriminate|].
  f_equal. rewrite map_map.
  assert (Hn : INR (length iw) <> 0) by (apply not_0_INR; discriminate).
  rewrite (xsum_map_fin _ (fun x => exp (- m) * (/ INR (length iw) * lik x))).
  - rewrite Rsum_map_scale. apply log_unshift.
  - intros x Hin. rewrite exp_shift by auto. unfold xdiv. destruct (Req_EM_T _ 0); [contradiction|].
    cbn [xmul]. f_equal. unfold cmass, lik, Rdiv. generalize (/ INR (length iw)). intros q. destruct x; ring.
Qed.

Lemma log_likelihood_dead iw ws : iw <> [] -> (forall x, In x iw -> x = NInf) ->
  log_likelihood iw ws = Ok (xadd NInf (xlog (xsum
    (match ws with None => map (fun _ => NaN) iw | Some w => map (fun _ => NaN) (combine w iw) end)))).
Proof.
  intros Hne Hall. unfold log_likelihood. destruct iw as [|x0 iw']; [congruence|]. set (iw := x0 :: iw') in *.
  assert (Em : xmaxl iw = NInf).
  { destruct (xmaxl_clean iw) as [[E _]|(m & _ & Hin & _)]; [|exact E|].
    - intros y Hy. rewrite (Hall y Hy). exact I.
    - apply Hall in Hin. discriminate. }
  rewrite Em. do 4 f_equal. destruct ws as [w|].
  - rewrite combine_map_r, map_map. apply map_ext_in. intros [a x] Hin. simpl.
    rewrite (Hall x) by (eapply in_combine_r; eassumption). simpl. destruct a; reflexivity.
  - rewrite map_map. apply map_ext_in. intros x Hx. rewrite (Hall x Hx). cbn [xsub xopp xadd xexp].
    generalize (xdiv (Fin 1) (Fin (INR (length iw)))). intros q. destruct q; reflexivity.
Qed.

Lemma log_likelihood_nan iw : In NaN iw -> forall ws,
  log_likelihood iw ws = Ok NaN.
Proof.
  intros Hn ws. unfold log_likelihood. destruct iw as [|x0 iw']; [contradiction|]. set (iw := x0 :: iw') in *.
  rewrite (xmaxl_nan iw Hn). reflexivity.
Qed.

(** Weighted sum with indices. *)
Lemma Rsum_combine {A} (d : A) (g : R -> A -> R) w v : length w = length v ->
  Rsum (map (fun p => g (fst p) (snd p)) (combine w v)) =
  Rsum (map (fun i => g (nth i w 0) (nth i v d)) (seq 0 (length w))).
Proof.
  revert v. induction w as [|a w IH]; destruct v as [|b v]; simpl; intros H; try discriminate; [reflexivity|].
  unfold Rsum; simpl. f_equal. rewrite <- seq_shift, map_map. apply (IH v). now injection H.
Qed.

Lemma Rsum_swap {A B} (f : A -> B -> R) l1 l2 :
  Rsum (map (fun a => Rsum (map (fun b => f a b) l2)) l1) =
  Rsum (map (fun b => Rsum (map (fun a => f a b) l1)) l2).
Proof.
  induction l1 as [|a l1 IH]; simpl.
  - change (0 = Rsum (map (fun _ : B => 0) l2)). rewrite (Rsum_map_const l2 0). lra.
  - transitivity (Rsum (map (fun b => f a b) l2) + Rsum (map (fun a => Rsum (map (fun b => f a b) l2)) l1)); [reflexivity|].
    rewrite IH, <- Rsum_map_plus. reflexivity.
Qed.

Lemma expect_id_const w v c : length w = length v -> Rsum w = 1 ->
  expect (fun x => x + c) w v = expect (fun x => x) w v + c.
Proof.
  unfold expect. revert v. intros v Hl Hs.
  rewrite (Rsum_map_ext (fun p => fst p * (snd p + c)) (fun p => fst p * snd p + c * fst p)) by (intros; ring).
  rewrite Rsum_map_plus, Rsum_map_scale. f_equal.
  assert (E : map fst (combine w v) = w).
  { clear Hs. revert v Hl. induction w; destruct v; simpl; intros; try discriminate; [reflexivity|]. now rewrite IHw by lia. }
  rewrite E, Hs. lra.
Qed.

Lemma map_fst_combine {A B} (w : list A) (v : list B) : length w = length v -> map fst (combine w v) = w.
Proof. revert v; induction w; destruct v; simpl; intros; try discriminate; [reflexivity|]. now rewrite IHw by lia. Qed.
Lemma map_snd_combine {A B} (w : list A) (v : list B) : length w = length v -> map snd (combine w v) = v.
Proof. revert v; induction w; destruct v; simpl; intros; try discriminate; [reflexivity|]. now rewrite IHw by lia. Qed.

Lemma weighted_bounds w v f lo hi : prob_vec w -> length w = length v ->
  (forall x, In x v -> lo <= f x <= hi) -> lo <= expect f w v <= hi.
Proof.
  intros [Hn Hs] Hl Hb. unfold expect.
  assert (E : forall c, Rsum (map (fun p : R * R => c * fst p) (combine w v)) = c).
  { intros c. rewrite Rsum_map_scale, (map_fst_combine w v Hl), Hs. lra. }
  split.
  - rewrite <- (E lo) at 1. apply Rsum_map_le. intros [a x] Hin. simpl.
    pose proof (Hn a (in_combine_l _ _ _ _ Hin)). pose proof (Hb x (in_combine_r _ _ _ _ Hin)). nra.
  - rewrite <- (E hi). apply Rsum_map_le. intros [a x] Hin. simpl.
    pose proof (Hn a (in_combine_l _ _ _ _ Hin)). pose proof (Hb x (in_combine_r _ _ _ _ Hin)). nra.
Qed.

(** * Moments *)

Lemma filter_mean_fin w v : filter_mean (map Fin v) (map Fin w) = Fin (expect (fun x => x) w v).
Proof.
  unfold filter_mean. rewrite combine_map_r, combine_map_l, !map_map. simpl.
  rewrite (xsum_map_fin _ (fun p => fst p * snd p)) by reflexivity. reflexivity.
Qed.

Lemma filter_variance_fin w v :
  filter_variance (map Fin v) (map Fin w) =
  Fin (expect (fun x => (x - expect (fun x => x) w v) * (x - expect (fun x => x) w v)) w v).
Proof.
  unfold filter_variance. rewrite filter_mean_fin, !map_map, combine_map_r, combine_map_l, !map_map. simpl.
  rewrite (xsum_map_fin _ (fun p => fst p * ((snd p - expect (fun x => x) w v) * (snd p - expect (fun x => x) w v)))) by reflexivity.
  reflexivity.
Qed.

Lemma variance_second_moment w v : length w = length v -> Rsum w = 1 ->
  expect (fun x => (x - expect (fun x => x) w v) * (x - expect (fun x => x) w v)) w v =
  expect (fun x => x * x) w v - expect (fun x => x) w v * expect (fun x => x) w v.
Proof.
  intros Hl Hs. set (m := expect (fun x => x) w v).
  unfold expect at 1.
  rewrite (Rsum_map_ext _ (fun p => fst p * (snd p * snd p) + ((-2 * m) * (fst p * snd p) + (m * m) * fst p))) by (intros; ring).
  rewrite !Rsum_map_plus, !Rsum_map_scale, (map_fst_combine w v Hl), Hs.
  fold (expect (fun x => x * x) w v). change (Rsum (map (fun p => fst p * snd p) (combine w v))) with m. ring.
Qed.

Lemma variance_nonneg w v : prob_vec w ->
  0 <= expect (fun x => (x - expect (fun x => x) w v) * (x - expect (fun x => x) w v)) w v.
Proof.
  intros [Hn _]. unfold expect at 1. apply Rsum_nonneg. intros y Hy. apply in_map_iff in Hy.
  destruct Hy as ([a x] & <- & Hin). simpl. pose proof (Hn a (in_combine_l _ _ _ _ Hin)).
  apply Rmult_le_pos; [assumption|]. apply Rle_0_sqr.
Qed.

Lemma variance_zero_iff w v : prob_vec w -> length w = length v ->
  (expect (fun x => (x - expect (fun x => x) w v) * (x - expect (fun x => x) w v)) w v = 0 <->
   exists c, forall i a x, nth_error w i = Some a -> nth_error v i = Some x -> 0 < a -> x = c).
Proof.
  intros [Hn Hs] Hl. set (m := expect (fun x => x) w v). split.
  - intros H0. exists m. intros i a x Hi Hx Ha.
    assert (Hin : In (a, x) (combine w v)).
    { clear - Hi Hx. revert i v Hi Hx. induction w as [|b w IH]; destruct i; simpl; intros v Hi Hx; try discriminate; destruct v; try discriminate; simpl in *.
      - left. congruence.
      - right. eapply IH; eassumption. }
    unfold expect in H0. eapply Rsum_zero in H0.
    + instantiate (1 := a * ((x - m) * (x - m))) in H0. apply Rmult_integral in H0. destruct H0 as [|H0]; [lra|].
      apply Rmult_integral in H0. lra.
    + intros y Hy. apply in_map_iff in Hy. destruct Hy as ([b z] & <- & Hb). simpl.
      pose proof (Hn b (in_combine_l _ _ _ _ Hb)). apply Rmult_le_pos; [assumption|]. apply Rle_0_sqr.
    + apply in_map_iff. now exists (a, x).
  - intros [c Hc].
    assert (Hc' : forall p, In p (combine w v) -> fst p = 0 \/ snd p = c).
    { intros [a x] Hin. simpl. pose proof (Hn a (in_combine_l _ _ _ _ Hin)) as Ha.
      destruct (Req_dec a 0); [now left|right].
      assert (Hex : exists i, nth_error w i = Some a /\ nth_error v i = Some x).
      { clear - Hin. revert v Hin. induction w as [|b w IH]; destruct v as [|y v]; simpl; intros Hin; try contradiction.
        destruct Hin as [[= -> ->]|Hin]; [exists 0%nat; now split|].
        destruct (IH v Hin) as (i & H1 & H2). exists (S i). now split. }
      destruct Hex as (i & H1 & H2). apply (Hc i a x H1 H2). lra. }
    assert (Em : m = c).
    { unfold m, expect. rewrite (Rsum_map_ext _ (fun p => c * fst p)).
      - rewrite Rsum_map_scale, (map_fst_combine w v Hl), Hs. lra.
      - intros p Hp. destruct (Hc' p Hp) as [->| ->]; ring. }
    unfold expect at 1. rewrite (Rsum_map_ext _ (fun _ => 0)).
    + rewrite Rsum_map_const. lra.
    + intros p Hp. rewrite Em. destruct (Hc' p Hp) as [->| ->]; ring.
Qed.

(** * Covariance *)

Lemma combine_seq w v : length w = length v -> combine w v = map (fun i => (nth i w 0, nth i v 0)) (seq 0 (length w)).
Proof.
  revert v. induction w as [|a w IH]; destruct v as [|b v]; simpl; intros H; try discriminate; [reflexivity|].
  f_equal. rewrite <- seq_shift, map_map. apply IH. now injection H.
Qed.

Lemma expect_seq f w v : length w = length v ->
  expect f w v = Rsum (map (fun i => nth i w 0 * f (nth i v 0)) (seq 0 (length w))).
Proof. intros H. unfold expect. rewrite combine_seq by assumption. now rewrite map_map. Qed.

Lemma combine3_seq w a b : length w = length a -> length w = length b ->
  combine w (combine a b) = map (fun i => (nth i w 0, (nth i a 0, nth i b 0))) (seq 0 (length w)).
Proof.
  revert a b. induction w as [|x w IH]; destruct a as [|y a]; destruct b as [|z b]; simpl; intros H1 H2; try discriminate; [reflexivity|].
  f_equal. rewrite <- seq_shift, map_map. apply IH; congruence.
Qed.

Lemma expect2_seq w a b : length w = length a -> length w = length b ->
  expect2 w a b = Rsum (map (fun i => nth i w 0 * (nth i a 0 * nth i b 0)) (seq 0 (length w))).
Proof. intros H1 H2. unfold expect2. rewrite combine3_seq by assumption. now rewrite map_map. Qed.

Lemma Rsum_nth w : Rsum (map (fun i => nth i w 0) (seq 0 (length w))) = Rsum w.
Proof.
  induction w as [|a w IH]; simpl; [reflexivity|]. rewrite <- seq_shift, map_map. unfold Rsum in *. simpl. now rewrite IH.
Qed.

Lemma filter_covariance_fin w a b : length w = length a -> length w = length b -> Rsum w = 1 ->
  filter_covariance (map Fin a) (map Fin b) (map Fin w) = Fin (cov w a b).
Proof.
  intros Ha Hb Hs. unfold filter_covariance. rewrite !filter_mean_fin.
  set (ma := expect (fun x => x) w a). set (mb := expect (fun x => x) w b).
  rewrite !map_map. rewrite combine_map_l.
  rewrite (combine_map_l (fun v => xsub (Fin v) (Fin ma)) a), (combine_map_r (fun v => xsub (Fin v) (Fin mb)) a).
  rewrite map_map, combine_map_r, !map_map. rewrite (combine_map_r _ w), map_map. simpl.
  rewrite (xsum_map_fin _ (fun p => fst p * ((fst (snd p) - ma) * (snd (snd p) - mb)))) by reflexivity.
  f_equal. rewrite combine3_seq, map_map by assumption. simpl.
  rewrite (Rsum_map_ext _ (fun i => nth i w 0 * (nth i a 0 * nth i b 0)
      + ((- mb) * (nth i w 0 * nth i a 0) + ((- ma) * (nth i w 0 * nth i b 0) + (ma * mb) * nth i w 0)))) by (intros; ring).
  rewrite !Rsum_map_plus, !Rsum_map_scale, Rsum_nth, Hs.
  unfold cov. rewrite expect2_seq by assumption. fold ma mb.
  assert (Ea : Rsum (map (fun i => nth i w 0 * nth i a 0) (seq 0 (length w))) = ma) by (symmetry; apply expect_seq; assumption).
  assert (Eb : Rsum (map (fun i => nth i w 0 * nth i b 0) (seq 0 (length w))) = mb) by (symmetry; apply expect_seq; assumption).
  rewrite Ea, Eb. ring.
Qed.

Lemma cov_sym w a b : length w = length a -> length w = length b -> cov w a b = cov w b a.
Proof.
  intros Ha Hb. unfold cov. rewrite !expect2_seq by assumption.
  rewrite (Rsum_map_ext (fun i => nth i w 0 * (nth i a 0 * nth i b 0)) (fun i => nth i w 0 * (nth i b 0 * nth i a 0))) by (intros; ring).
  ring.
Qed.

Lemma cov_centered w a b : length w = length a -> length w = length b -> Rsum w = 1 ->
  cov w a b = Rsum (map (fun i => nth i w 0 * ((nth i a 0 - expect (fun x => x) w a) * (nth i b 0 - expect (fun x => x) w b))) (seq 0 (length w))).
Proof.
  intros Ha Hb Hs.
  set (ma := expect (fun x => x) w a). set (mb := expect (fun x => x) w b).
  rewrite (Rsum_map_ext _ (fun i => nth i w 0 * (nth i a 0 * nth i b 0)
      + ((- mb) * (nth i w 0 * nth i a 0) + ((- ma) * (nth i w 0 * nth i b 0) + (ma * mb) * nth i w 0)))) by (intros; ring).
  rewrite !Rsum_map_plus, !Rsum_map_scale, Rsum_nth, Hs.
  unfold cov. rewrite expect2_seq by assumption. fold ma mb.
  assert (Ea : Rsum (map (fun i => nth i w 0 * nth i a 0) (seq 0 (length w))) = ma) by (symmetry; apply expect_seq; assumption).
  assert (Eb : Rsum (map (fun i => nth i w 0 * nth i b 0) (seq 0 (length w))) = mb) by (symmetry; apply expect_seq; assumption).
  rewrite Ea, Eb. ring.
Qed.

(** Quadratic form of the covariance for coefficients [fst] and components [snd]. *)
Lemma cov_psd w (cvs : list (R * list R)) :
  prob_vec w -> (forall c v, In (c, v) cvs -> length v = length w) ->
  0 <= Rsum (map (fun p => Rsum (map (fun q => fst p * fst q * cov w (snd p) (snd q)) cvs)) cvs).
Proof.
  intros [Hn Hs] Hlen.
  set (dev := fun (p : R * list R) i => nth i (snd p) 0 - expect (fun x => x) w (snd p)).
  assert (Hl : forall p, In p cvs -> length w = length (snd p)) by (intros [c v] Hp; symmetry; now apply (Hlen c)).
  rewrite (Rsum_map_ext _ (fun p => Rsum (map (fun q => Rsum (map (fun i => nth i w 0 * ((fst p * dev p i) * (fst q * dev q i))) (seq 0 (length w)))) cvs))).
  2:{ intros p Hp. apply Rsum_map_ext. intros q Hq. rewrite cov_centered by auto.
      rewrite <- Rsum_map_scale. apply Rsum_map_ext. intros i _. unfold dev. ring. }
  rewrite (Rsum_map_ext _ (fun p => Rsum (map (fun i => (nth i w 0 * (fst p * dev p i)) * Rsum (map (fun q => fst q * dev q i) cvs)) (seq 0 (length w))))).
  2:{ intros p Hp. rewrite Rsum_swap. apply Rsum_map_ext. intros i _. rewrite <- Rsum_map_scale. apply Rsum_map_ext. intros; ring. }
  rewrite Rsum_swap.
  apply Rsum_nonneg. intros y Hy. apply in_map_iff in Hy. destruct Hy as (i & <- & Hi).
  set (T := Rsum (map (fun q => fst q * dev q i) cvs)).
  rewrite (Rsum_map_ext _ (fun p => (nth i w 0 * T) * (fst p * dev p i))) by (intros; ring).
  rewrite Rsum_map_scale. fold T.
  assert (0 <= nth i w 0) by (apply Hn, nth_In; apply in_seq in Hi; lia).
  rewrite Rmult_assoc. apply Rmult_le_pos; [assumption|apply Rle_0_sqr].
Qed.
