(** Property C106 (pyfilter/inference/sequential): a fit without rejuvenation is importance sampling: estimates of the
    evidence and of posterior means converge as the number of parameter particles grows. *)
From Coq Require Import Reals List Bool Arith Lia Lra.
From Coquelicot Require Rcomplements.
From Verif.Model Require Import Base Xf Weights Pmmh Sequential.
From Verif.Spec Require Import WeightsSpec ParticleSpec PmmhSpec SequentialSpec UnbiasedSpec StationarySpec ConvergeSpec ProperSpec.
From Verif.Proofs Require Import WeightsProofs SequentialProofs UnbiasedProofs ConvergeProofs BackwardProofs MvnProofs.
From Verif.Props Require Import WeightsProps ProperProps.
Import ListNotations.
Local Open Scope nat_scope.

(** The numbers in a list of floats. *)
Definition entry (p : list xf) (b : nat) : R := match nth_error p b with Some (Fin r) => r | _ => 0%R end.
Section Importance.
  Context {T F Y K : Type}.
  (** The mean of the weights after a fit; the mean of [h] over the parameters with the normalised weights. *)
  Definition evidence_value (E : env T F Y K) b0 cbs np rnd rows ys : R :=
    match fit_alg E (Plain b0) cbs (new_alg np rnd) rows rows ys with
    | (_, Ok (s, _)) => (/ INR (e_B E) * sum_below (e_B E) (weight_at (s_w s)))%R
    | _ => 0%R
    end.
  Definition posterior_value (E : env T F Y K) b0 cbs np rnd rows ys (h : T -> R) : R :=
    match fit_alg E (Plain b0) cbs (new_alg np rnd) rows rows ys with
    | (a, Ok (s, _)) =>
        match normalized_weights E s with
        | Ok (p, _) => sum_below (e_B E) (fun b => entry p b * at_slot (g_ctx (a_world a)) b h)%R
        | Raise _ => 0%R
        end
    | _ => 0%R
    end.

  Lemma normalised_entries lowest w B : 0 < B -> List.length w = B -> all_fin w -> exists p arg, normalize lowest w = Ok (p, arg) /\
    (0 < sum_below B (weight_at w))%R /\ forall b, b < B -> entry p b = (weight_at w b / sum_below B (weight_at w))%R.
  Proof.
    intros HB L Fw. unfold all_fin in Fw. rewrite Forall_forall in Fw.
    assert (Nw : forall b, b < B -> exists r, nth_error w b = Some (Fin r) /\ weight_at w b = exp r).
    { intros b Hb. destruct (nth_error w b) as [x|] eqn:Eb; [|apply nth_error_None in Eb; lia]. pose proof (Fw x (nth_error_In _ _ Eb)) as Hx. destruct x as [r| | |]; try contradiction. exists r. split; [reflexivity|]. unfold weight_at. now rewrite Eb. }
    destruct (C05_normalised_simplex lowest w) as (ps & arg & En & Lp & [Pp Ps] & H).
    { destruct (Nw 0 HB) as (r & Er & _). exists (Fin r). split; [exact (nth_error_In _ _ Er)|now exists r]. }
    exists (map Fin ps), arg. split; [exact En|].
    assert (P : (0 < sum_below B (weight_at w))%R).
    { apply Rlt_le_trans with (weight_at w 0); [destruct (Nw 0 HB) as (r & _ & ->); apply exp_pos|]. destruct B as [|B']; [lia|]. rewrite sb_first. cut (0 <= sum_below B' (fun i => weight_at w (S i)))%R; [lra|]. apply sb_pos. intros i Hi. destruct (Nw (S i) ltac:(lia)) as (r & _ & ->). left. apply exp_pos. }
    split; [exact P|]. intros b Hb. destruct (Nw b Hb) as (r & Er & ->).
    assert (En' : forall i, i < B -> exists q, nth_error ps i = Some q /\ entry (map Fin ps) i = q).
    { intros i Hi. destruct (nth_error ps i) as [q|] eqn:Eq; [|apply nth_error_None in Eq; lia]. exists q. split; [reflexivity|]. unfold entry. now rewrite nth_error_map, Eq. }
    destruct (En' b Hb) as (q & Eq & ->). apply (Rmult_eq_reg_r (sum_below B (weight_at w))); [|lra]. unfold Rdiv. rewrite Rmult_assoc, Rinv_l, Rmult_1_r by lra.
    rewrite <- sb_scal. rewrite (sb_ext B _ (fun i => entry (map Fin ps) i * exp r)%R).
    - rewrite sb_scal_r. replace (sum_below B (entry (map Fin ps))) with 1%R; [ring|]. rewrite <- Ps. unfold sum_below. f_equal. rewrite <- Lp in L. rewrite <- L. symmetry. 
      transitivity (map (fun i => nth i ps 0%R) (seq 0 (List.length ps))).
      + apply map_ext_in. intros i Hi. apply in_seq in Hi. unfold entry. rewrite nth_error_map. destruct (nth_error ps i) as [z|] eqn:Ez; [|apply nth_error_None in Ez; lia]. cbn. symmetry. now apply nth_error_nth.
      + clear. induction ps as [|z ps IH]; [reflexivity|]. cbn [List.length seq map nth]. f_equal. rewrite <- seq_shift, map_map. exact IH.
    - intros i Hi. destruct (Nw i Hi) as (ri & Eri & ->). destruct (En' i Hi) as (qi & Eqi & ->). destruct (H b (Fin r) q Er Eq) as [_ H2]. destruct (H2 r eq_refl) as [_ H3]. exact (H3 i (Fin ri) qi ri Eri Eqi eq_refl).
  Qed.
End Importance.

Section Slots.
  Context {T F Y K D : Type}.
  (** Particle [k] draws its parameters and the random numbers of its filter; [est]: the likelihood that filter estimates. *)
  Variables (LT : law T) (LD : law D) (base : nat -> T * D) (E : (nat -> D) -> env T F Y K) (B np rnd : nat) (ys : list Y) (b0 : Sequential.base) (cbs : list callback) (est : T * D -> R).
  Definition rows_of (q : nat -> T * D) : list T := map (fun k => fst (q k)) (seq 0 B).
  Definition draws_of (q : nat -> T * D) : nat -> D := fun k => snd (q k).
  Notation LQ := (and_then LT LD).
  Record separate_slots : Prop := {
    ss_laws : law_ok LT /\ law_ok LD;
    ss_base : forall k, supp LQ (base k);
    ss_envs : forall q, (forall k, supp LQ (q k)) -> env_ok (E (draws_of q)) /\ e_B (E (draws_of q)) = B /\ tame (E (draws_of q));
    ss_alone : forall q b, (forall k, supp LQ (q k)) -> b < B -> mass (snd (alone (E (draws_of q)) rnd np b (fst (q b)) ys)) = est (q b);
    ss_calm : calm b0 B (List.length ys)
  }.
  Notation many := (independent LQ B base).
  Definition evidence q := evidence_value (E (draws_of q)) b0 cbs np rnd (rows_of q) ys.
  Definition posterior_mean q h := posterior_value (E (draws_of q)) b0 cbs np rnd (rows_of q) ys h.

  Lemma slots_supp q : supp many q -> forall k, supp LQ (q k). Proof. destruct B; cbn; auto. Qed.
  Lemma rows_nth q b : b < B -> nth_error (rows_of q) b = Some (fst (q b)).
  Proof. intros Hb. unfold rows_of. rewrite nth_error_map. rewrite (nth_error_nth' _ 0) by now rewrite seq_length. cbn. now rewrite seq_nth. Qed.
  Lemma estimates q h : separate_slots -> supp many q -> 0 < B /\ (0 < sum_below B (fun b => est (q b)))%R /\
    evidence q = (/ INR B * sum_below B (fun b => est (q b)))%R /\
    posterior_mean q h = (sum_below B (fun b => est (q b) * h (fst (q b))) / sum_below B (fun b => est (q b)))%R.
  Proof.
    intros [_ _ HE HA HC] Hq. pose proof (slots_supp q Hq) as Sq. destruct (HE q Sq) as (OK & EB & TA). assert (HB : 0 < B) by (rewrite <- EB; apply OK).
    destruct (fit_weights (E (draws_of q)) OK TA b0 cbs np rnd (rows_of q) ys) as (a & s & calls & Ef & _ & Ec & Lw & Fw & W); [unfold rows_of; now rewrite map_length, seq_length|now rewrite EB|].
    assert (Ww : forall b, b < B -> weight_at (s_w s) b = est (q b)) by (intros b Hb; rewrite (W b (fst (q b))) by (now apply rows_nth); now apply HA).
    rewrite EB in Lw. destruct (normalised_entries (e_lowest (E (draws_of q))) (s_w s) B HB Lw Fw) as (p & arg & En & P & Hp).
    rewrite (sb_ext B (weight_at (s_w s)) (fun b => est (q b)) Ww) in P, Hp. split; [exact HB|]. split; [exact P|]. unfold evidence, posterior_mean, evidence_value, posterior_value, normalized_weights. rewrite Ef, EB, En. cbn [bind]. split.
    - f_equal. now apply sb_ext.
    - unfold Rdiv. rewrite <- sb_scal_r. apply sb_ext. intros b Hb. rewrite (Hp b Hb), (Ww b Hb). unfold at_slot. rewrite Ec, rows_nth by exact Hb. unfold Rdiv. ring.
  Qed.
  Lemma LQ_ok : separate_slots -> law_ok LQ. Proof. intros [[H1 H2] _ _ _ _]. now apply and_then_ok. Qed.
  Lemma many_ok : separate_slots -> law_ok many. Proof. intros H. apply independent_ok; [now apply LQ_ok|apply H]. Qed.

  (** The mean square error of a mean over the particles. *)
  Lemma mean_error f m v : separate_slots -> 0 < B -> averages LQ f m -> averages LQ (fun q => square (f q)) v ->
    averages many (fun q => square (/ INR B * sum_below B (fun b => f (q b)) - m)) ((v - square m) / INR B)%R.
  Proof.
    intros HS HB Hm Hv. pose proof (independent_variance LQ (LQ_ok HS) base (ss_base HS) B B (fun _ => f) (fun _ => m) (fun _ => v) (fun _ => / INR B)%R (le_n B) (fun _ _ => Hm) (fun _ _ => Hv)) as H.
    pose proof (lt_0_INR B HB) as PB. assert (S1 : forall c, sum_below B (fun _ => c) = (INR B * c)%R).
    { intros c. rewrite (sb_ext B _ (fun _ => c * 1)%R) by (intros; ring). rewrite sb_scal, CompleteProofs.sb_one. ring. }
    refine (eq_rect _ (averages many _) (averages_ext many (many_ok HS) _ _ _ _ H) _ _).
    - intros q _. cbn beta. f_equal. change (sum_below B (fun i => / INR B * f (q i)) - sum_below B (fun _ => / INR B * m) = / INR B * sum_below B (fun b => f (q b)) - m)%R. rewrite sb_scal, S1. field. lra.
    - change (sum_below B (fun _ => square (/ INR B) * (v - square m)) = (v - square m) / INR B)%R. rewrite S1. unfold square. field. lra.
  Qed.

  (** The mean of the weights estimates the evidence [Z], the likelihood averaged over the prior: exact mean square error. *)
  Theorem C106_evidence lik Z V : separate_slots -> 0 < B -> (forall t, supp LT t -> averages LD (fun d => est (t, d)) (lik t)) ->
    averages LT lik Z -> averages LQ (fun q => square (est q)) V ->
    averages many evidence Z /\ averages many (fun q => square (evidence q - Z)) ((V - square Z) / INR B)%R.
  Proof.
    intros HS HB Hlik HZ HV. destruct (ss_laws HS) as [HT HD]. pose proof (many_ok HS) as HM. pose proof (lt_0_INR B HB) as PB.
    assert (A : averages LQ est Z) by (apply (and_then_is LT LD HT HD est lik Z); assumption).
    split.
    - assert (S : averages many (fun q => / INR B * sum_below B (fun b => est (q b)))%R (/ INR B * sum_below B (fun _ => Z))%R).
      { apply (averages_scal _ HM). apply (averages_sb B 1 0 Nat.lt_0_1 _ HM (fun b q => est (q b)) (fun _ => Z)). intros b Hb. now apply (independent_one LQ (LQ_ok HS) base (ss_base HS)). }
      replace Z with (/ INR B * sum_below B (fun _ => Z))%R.
      + refine (averages_ext _ HM _ _ _ _ S). intros q Hq. symmetry. apply (estimates q (fun _ => 1%R) HS Hq).
      + rewrite (sb_ext B _ (fun _ => Z * 1)%R) by (intros; ring). rewrite sb_scal, CompleteProofs.sb_one. field. lra.
    - refine (averages_ext _ HM _ _ _ _ (mean_error est Z V HS HB A HV)). intros q Hq. cbn beta. destruct (estimates q (fun _ => 1%R) HS Hq) as (_ & _ & -> & _). reflexivity.
  Qed.

  (** Posterior means: the mean of a bounded [h] with the normalised weights estimates [m / Z], its mean under prior times
      likelihood; the mean square error is at most a constant over the number of particles. *)
  Theorem C106_posterior lik (h : T -> R) C Z V m W : separate_slots -> 0 < B -> (forall t, supp LT t -> averages LD (fun d => est (t, d)) (lik t)) ->
    averages LT lik Z -> averages LT (fun t => lik t * h t)%R m -> averages LQ (fun q => square (est q)) V -> averages LQ (fun q => square (est q * h (fst q))) W ->
    (forall t, supp LT t -> (Rabs (h t) <= C)%R) -> (0 < Z)%R ->
    at_most many (fun q => square (posterior_mean q h - m / Z)) (2 * (W - square m + square C * (V - square Z)) / (square Z * INR B))%R.
  Proof.
    intros HS HB Hlik HZ Hm HV HW HC PZ. destruct (ss_laws HS) as [HT HD]. pose proof (many_ok HS) as HM. pose proof (lt_0_INR B HB) as PB.
    assert (A1 : averages LQ est Z) by (apply (and_then_is LT LD HT HD est lik Z); assumption).
    assert (A2 : averages LQ (fun q => est q * h (fst q))%R m).
    { apply (and_then_is LT LD HT HD (fun q => est q * h (fst q))%R (fun t => lik t * h t)%R m); [|exact Hm]. intros t Ht. cbn [fst]. rewrite (Rmult_comm (lik t)).
      refine (averages_ext LD HD _ _ _ _ (averages_scal LD HD (h t) _ _ (Hlik t Ht))). intros d _. apply Rmult_comm. }
    pose proof (mean_error _ _ _ HS HB A1 HV) as M1. pose proof (mean_error _ _ _ HS HB A2 HW) as M2.
    pose proof (averages_lin _ HM (2 / square Z) (2 / square Z * square C) _ _ _ _ M2 M1) as M3.
    eexists. eexists. split; [|split; [exact M3|]].
    - intros q Hq. cbn beta. destruct (estimates q h HS Hq) as (_ & P & _ & ->). set (e := sum_below B (fun b => est (q b))) in *. set (a := sum_below B (fun b => est (q b) * h (fst (q b)))%R).
      assert (Ba : (Rabs (a / e) <= C)%R).
      { unfold Rdiv. rewrite Rabs_mult, (Rabs_right (/ e)) by (left; now apply Rinv_0_lt_compat). apply (Rmult_le_reg_r e); [exact P|]. rewrite Rmult_assoc, Rinv_l, Rmult_1_r by lra.
        assert (Pe : forall b, b < B -> (0 <= est (q b))%R). { intros b Hb. rewrite <- (ss_alone HS q b (slots_supp q Hq) Hb). unfold mass. destruct (snd _); [left; apply exp_pos|lra|lra|lra]. }
        unfold a, e. rewrite <- sb_scal. apply Rabs_le. split.
        - apply Ropp_le_cancel. rewrite Ropp_involutive. replace (- sum_below B (fun b => est (q b) * h (fst (q b))))%R with (sum_below B (fun b => -1 * (est (q b) * h (fst (q b)))))%R by (rewrite sb_scal; ring).
          apply sumto_le. intros b Hb. specialize (Pe b Hb). pose proof (HC (fst (q b)) (proj1 (slots_supp q Hq b))) as Hh. apply Rcomplements.Rabs_le_between in Hh. nra.
        - apply sumto_le. intros b Hb. specialize (Pe b Hb). pose proof (HC (fst (q b)) (proj1 (slots_supp q Hq b))) as Hh. apply Rcomplements.Rabs_le_between in Hh. nra. }
      pose proof (square_abs _ _ Ba) as Hb. set (x := (/ INR B * e)%R). set (y := (/ INR B * a)%R). set (r := (a / e)%R) in *.
      assert (Er : (x * r = y)%R) by (unfold x, y, r; field; lra).
      assert (El : (r - m / Z)%R = (/ Z * ((y - m) + - r * (x - Z)))%R) by (rewrite <- Er; field; lra). rewrite El.
      replace (square (/ Z * (y - m + - r * (x - Z)))) with (/ square Z * square (y - m + - r * (x - Z)))%R by (unfold square; field; lra).
      pose proof (square_plus (y - m) (- r * (x - Z))) as Q. replace (square (- r * (x - Z))) with (square r * square (x - Z))%R in Q by (unfold square; ring).
      pose proof (Rmult_le_compat_r _ _ _ (square_nonneg (x - Z)) Hb) as Q2. assert (0 < / square Z)%R by (apply Rinv_0_lt_compat; unfold square; nra).
      replace (2 / square Z * square (y - m) + 2 / square Z * square C * square (x - Z))%R with (/ square Z * (2 * square (y - m) + 2 * (square C * square (x - Z))))%R by (unfold Rdiv; ring).
      apply Rmult_le_compat_l; lra.
    - right. field. split; [lra|]. unfold square. nra.
  Qed.
  (** ... and so the estimate is close to the posterior mean with a probability that tends to one. *)
  Theorem C106_probability lik (h : T -> R) C Z V m W eps : separate_slots -> 0 < B -> (forall t, supp LT t -> averages LD (fun d => est (t, d)) (lik t)) ->
    averages LT lik Z -> averages LT (fun t => lik t * h t)%R m -> averages LQ (fun q => square (est q)) V -> averages LQ (fun q => square (est q * h (fst q))) W ->
    (forall t, supp LT t -> (Rabs (h t) <= C)%R) -> (0 < Z)%R -> (0 < eps)%R ->
    at_most many (fun q => if Rle_dec eps (Rabs (posterior_mean q h - m / Z)) then 1 else 0)%R (2 * (W - square m + square C * (V - square Z)) / (square eps * square Z * INR B))%R.
  Proof.
    intros HS HB Hlik HZ Hm HV HW HC PZ Pe. pose proof (lt_0_INR B HB) as PB. assert (Ps : (0 < square eps)%R) by (unfold square; nra). assert (0 < / square eps)%R by now apply Rinv_0_lt_compat.
    refine (at_most_weaken many _ _ _ _ _ (at_most_affine many (many_ok HS) (/ square eps) 0 _ _ ltac:(lra) (C106_posterior lik h C Z V m W HS HB Hlik HZ Hm HV HW HC PZ)) _).
    - intros q _. cbn beta. pose proof (square_nonneg (posterior_mean q h - m / Z)) as P. destruct (Rle_dec eps _) as [Q|Q]; [|nra].
      assert (square eps <= square (posterior_mean q h - m / Z))%R.
      { set (z := (posterior_mean q h - m / Z)%R) in *. unfold square in *. rewrite <- (Rabs_right (z * z)) by (apply Rle_ge; exact P). rewrite Rabs_mult. nra. }
      replace 1%R with (/ square eps * square eps)%R at 1 by (field; lra). nra.
    - right. field. split; [lra|]. unfold square in *. nra.
  Qed.
End Slots.
Print Assumptions C106_evidence.
Print Assumptions C106_posterior.
Print Assumptions C106_probability.

(** [B] particles with parameters zero or one; the estimate of the likelihood [exp theta] of the first observation is half or
    one and a half times the truth, that of the second is exact.  A block of three observations is not complete. *)
Definition noisy_slots (B : nat) (d : nat -> R) : env nat nat unit unit :=
  Env nat nat unit unit (-1000)%R B
    (fun r np b built now => 0)
    (fun r np b built now y f => (S f, Fin (INR now + match f with 0 => ln (d b) | _ => 0%R end)))
    (fun r w => seq 0 B) (fun r rows w idx => map (fun i => nth i rows 0) idx) (fun r => repeat true B)
    (fun rows w fs => tt) (fun k rows => map (fun _ => Fin 0) rows) (fun k k' m => tt) (fun r k => repeat 7 B) (fun r => repeat (1 / 2)%R B) (fun t => Fin 0) (fun a b => 0%R).
Lemma noisy_slots_ok B d : 0 < B -> env_ok (noisy_slots B d) /\ e_B (noisy_slots B d) = B /\ tame (noisy_slots B d).
Proof.
  intros HB. split; [|split; [reflexivity|intros r np b t t' y f; exact I]]. unfold env_ok. cbn [noisy_slots e_B e_resample e_jitter e_coins e_sample e_log_prob e_uniforms]. split; [exact HB|].
  split; [intros; split; [apply seq_length|apply Forall_forall; intros i Hi; apply in_seq in Hi; lia]|]. split; [intros r rows w idx _ L; now rewrite map_length|].
  split; [intros; apply repeat_length|]. split; [intros; apply repeat_length|]. split; [intros k rows; apply map_length|intros; apply repeat_length].
Qed.
Definition coin : law nat := let p := (/ 2)%R in finite [(0, p); (1, p)].
Definition two_seen (q : nat * R) : R := (exp (2 * INR (fst q)) * snd q)%R.
Lemma coin_is f m : (/ 2 * f 0%nat + / 2 * f 1%nat = m)%R -> averages coin f m.
Proof. intros H. split; [exact I|]. cbn [coin finite mean map fold_right fst snd]. lra. Qed.
Example C106_nonvacuous : forall B, 0 < B -> separate_slots coin doubt (fun _ => (0, (1 / 2)%R)) (noisy_slots B) B 100 0 [tt; tt] (FixedWidthNESS 3 false) two_seen /\
  exists c, forall B, 0 < B ->
    averages (independent (and_then coin doubt) B (fun _ => (0, (1 / 2)%R))) (evidence (noisy_slots B) B 100 0 [tt; tt] (FixedWidthNESS 3 false) []) ((1 + exp 2) / 2)%R /\
    at_most (independent (and_then coin doubt) B (fun _ => (0, (1 / 2)%R)))
      (fun q => square (posterior_mean (noisy_slots B) B 100 0 [tt; tt] (FixedWidthNESS 3 false) [] q INR - exp 2 / (1 + exp 2)))%R (c / INR B)%R.
Proof.
  assert (H : forall B, 0 < B -> separate_slots coin doubt (fun _ => (0, (1 / 2)%R)) (noisy_slots B) B 100 0 [tt; tt] (FixedWidthNESS 3 false) two_seen).
  { intros B HB. constructor.
    - split; [apply finite_ok; cbn; lra|exact doubt_ok].
    - intros _. split; eexists; left; reflexivity.
    - intros q _. now apply noisy_slots_ok.
    - intros q b Hq Hb. assert (Pd : (0 < snd (q b))%R). { destruct (proj2 (Hq b)) as [p Hp]. cbn in Hp. destruct Hp as [Hp|[Hp|[]]]; injection Hp as <- _; lra. }
      unfold two_seen. cbn [alone alone_on noisy_slots e_step e_init fst snd xadd mass draws_of]. replace (2 * INR (fst (q b)))%R with (INR (fst (q b)) + INR (fst (q b)))%R by ring. unfold draws_of. rewrite !exp_plus, exp_0, exp_ln by exact Pd. ring.
    - cbn. lia. }
  assert (E0 : exp (2 * INR 0) = 1%R) by (rewrite <- exp_0; f_equal; cbn; ring). assert (E1 : exp (2 * INR 1) = exp 2) by (f_equal; cbn; ring).
  assert (Lk : forall t, supp coin t -> averages doubt (fun d => two_seen (t, d)) (exp (2 * INR t))) by (intros t _; apply doubt_means; reflexivity).
  assert (HZ : averages coin (fun t => exp (2 * INR t)) ((1 + exp 2) / 2)%R) by (apply coin_is; rewrite E0, E1; lra).
  assert (Hm : averages coin (fun t => exp (2 * INR t) * INR t)%R (exp 2 / 2)%R) by (apply coin_is; rewrite E0, E1; cbn; lra).
  assert (V : exists V, averages (and_then coin doubt) (fun q => square (two_seen q)) V) by (eexists; split; [split; [intros; exact I|exact I]|reflexivity]). destruct V as [V HV].
  assert (W : exists W, averages (and_then coin doubt) (fun q => square (two_seen q * INR (fst q))) W) by (eexists; split; [split; [intros; exact I|exact I]|reflexivity]). destruct W as [W HW].
  intros B HB. split; [now apply H|]. eexists. intros B' HB'. pose proof (lt_0_INR B' HB') as PB. split.
  - exact (proj1 (C106_evidence _ _ _ _ _ _ _ _ _ _ _ _ _ _ (H B' HB') HB' Lk HZ HV)).
  - pose proof (exp_pos 2) as P2. assert (Ab : forall t, supp coin t -> (Rabs (INR t) <= 1)%R).
    { intros t [p Hp]. cbn in Hp. destruct Hp as [Hp|[Hp|[]]]; injection Hp as <- _; cbn; [rewrite Rabs_R0|rewrite Rabs_R1]; lra. }
    pose proof (C106_posterior coin doubt _ (noisy_slots B') B' 100 0 [tt; tt] (FixedWidthNESS 3 false) [] two_seen _ INR 1%R _ V _ W (H B' HB') HB' Lk HZ Hm HV HW Ab ltac:(lra)) as Q.
    replace (exp 2 / (1 + exp 2))%R with (exp 2 / 2 / ((1 + exp 2) / 2))%R by (field; lra).
    match type of Q with at_most _ _ (?x / (?z * _))%R => replace (x / (z * INR B'))%R with (x / z / INR B')%R in Q end; [exact Q|]. field. split; [lra|]. unfold square. nra.
Qed.
