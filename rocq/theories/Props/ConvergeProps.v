(** Property C94 (pyfilter/filters/particle/sisr.py, base.py; pyfilter/filters/base.py): as the number of particles grows the
    likelihood estimate and the filter means converge to the likelihood and the filter means of the model. *)
From Coq Require Import String Reals List Bool Arith Lia Lra.
From Coquelicot Require Import Coquelicot.
From Verif.Model Require Import Base Xf Tensor Weights Resampling Particle FilterLoop Proposal.
From Verif.Spec Require Import WeightsSpec ResamplingSpec ParticleSpec LoopSpec ProposalSpec UnbiasedSpec FairSpec ConvergeSpec.
From Verif.Proofs Require Import WeightsProofs MomentsProofs ResamplingProofs ParticleProofs StepProofs ProposalProofs UnbiasedProofs UnbiasedFilter ConvergeProofs ConvergeFilter.
From Verif.Props Require Import ResamplingProps ResampleMeanProps UnbiasedProps ResampleErrorProps.
Import ListNotations.
Local Open Scope nat_scope.
Notation length := List.length.

(** The mean of [phi] in the last state of a run from the initial sample [x0]. *)
Definition run_mean {X} lowest (phi : X -> R) (o : @oracle X (list xf)) kd cf fuel r ys n b (j : nat) (x0 : tstate X) : R :=
  match initialize lowest n b x0 with
  | Ok s => last_mean lowest n j phi (batch_filter lowest o kd cf fuel r ys s)
  | Raise _ => 0%R
  end.
(** The constant: [K] moves, importance weights at most [G], resampling with constant [kappa], resampling when the effective
    sample size is below [tau] times the number of particles (or more). *)
Definition rate (kappa G tau : R) (K : nat) : R := (2 * (INR K * (4 / tau + 2 * kappa) * (4 * square G) ^ K) + 2 * square (G ^ K))%R.
(** The initial sample: the mean of [h] over the particles of filter [j] is [m] up to an error as with independent particles. *)
Definition starts {X} (LX : law (tstate X)) (n j : nat) (h : X -> R) (B m : R) : Prop :=
  at_most LX (fun x0 => square (sum_below n (fun i => / INR n * h (m_get (ts_val x0) i j)) - m))%R (square B / INR n)%R.

Section Converge.
  Context {X U D : Type} (lowest : R) (LU : law (nat -> U)) (LD : law (nat -> D)) (LX : law (tstate X)) (C : @chances X U D).
  Context (good : X -> Prop) (usable : list xf -> Prop) (fr : bool -> U -> list xf -> list nat) (fp : D -> nat -> list X -> list X)
    (fx : D -> list xf -> nat -> list X -> list xf -> list xf -> list X) (fw : D -> list xf -> nat -> list X -> list xf -> list xf -> list xf)
    (fg : nat -> list xf -> nat -> list X -> list xf).
  Context (n b j : nat) (kappa G tau thr : R) (move : nat -> option (list xf) -> (X -> R) -> X -> R) (movable : nat -> option (list xf) -> (X -> R) -> Prop).
  Context (cf : fconf) (fuel : nat) (ys : list (list xf)) (k r : nat) (w : filter_stream U D).

  (** What is asked of the filter, its draws and the data. *)
  Record converging : Prop := {
    con_laws : law_ok LU /\ law_ok LD /\ law_ok LX /\ law_pos LD;
    con_separate : separate LU LD C good usable fr fp fx fw fg;
    con_size : 0 < n /\ j < b;
    con_constants : (0 <= kappa /\ 1 <= G /\ 0 < tau <= 1 /\ tau * INR n <= thr)%R;
    con_resampling : steady_resampling LU kappa n b fr;
    con_fair : fair_moves LD good n j move movable fp fx fw;
    con_moves : steady_moves LD good usable G n j move movable fp fx fw;
    con_every : observe_every cf <> 0 /\ observe_every cf <= fuel;
    con_data : forall y, In y ys -> seen y <> None -> usable y;
    con_draws : draws (observe_every cf) 0 (map seen ys) <= k;
    con_initial : forall x0, supp LX x0 -> ts_time x0 = 0 /\ shaped (ts_val x0) n b /\ entries good (ts_val x0);
    con_stream : possible LU LD w
  }.
  Notation ys' := (map seen ys).
  Notation every := (observe_every cf).
  Notation K := (steps every 0 ys').
  Notation est := (fun x0 w => run_estimate lowest (at_stream C w) (SISR thr) cf fuel r ys n b j x0).
  Notation avg phi := (fun x0 w => run_mean lowest phi (at_stream C w) (SISR thr) cf fuel r ys n b j x0).

  Lemma weighted_error phi B m : converging -> (0 <= B)%R -> (forall x, good x -> (Rabs (phi x) <= B)%R) -> has_expected move movable every phi 0 ys' ->
    starts LX n j (expected move every phi 0 ys') (G ^ K * B) m ->
    at_most_from LX LU LD k r (fun x0 w => square (est x0 w * avg phi x0 w - m))%R w (rate kappa G tau K * square B / INR n)%R.
  Proof.
    intros [(HU & HD & HX & PD) Hsep (Hn & Hj) (Hka & HG & Htau & Hthr) Hres Hfair Hmove (Hev & Hfuel) Hys Hk Hx0 Hw] HB Hphi He Hm.
    set (h := expected move every phi 0 ys') in *. set (N := fun x0 : tstate X => sumto n (fun i => / INR n * h (m_get (ts_val x0) i j))%R).
    pose (S0 := sc n kappa G tau B K).
    assert (HS : (S0 <= INR K * (4 / tau + 2 * kappa) * (4 * square G) ^ K * square B / INR n)%R) by (apply sc_rate; assumption).
    exists (fun x0 => 2 * square (N x0 - m) + 2 * S0)%R. split.
    - intros x0 Hs. destruct (Hx0 x0 Hs) as (T & Sh & Gd).
      destruct (initialize_ok lowest n b x0 Hn Sh) as (s & Es & Hok & Ex & _ & _ & Ew).
      assert (Hso : sok good n b s) by (split; [exact Hok|rewrite Ex; exact Gd]).
      assert (T' : ts_time (c_x s) = 0) by (rewrite Ex; exact T).
      assert (Ei : imp lowest (col (c_w s) j) = repeat (/ INR n)%R n).
      { rewrite (Ew j). replace (repeat (Fin 0) n) with (map Fin (repeat 0%R n)) by now rewrite map_repeat'. rewrite imp_fin, map_repeat', exp_0. unfold normal.
        rewrite map_repeat'. f_equal. rewrite Rsum_repeat. field. apply not_0_INR. lia. }
      assert (Ev : value lowest n j s h = N x0).
      { unfold value, spread, N. rewrite Ei, Ex. apply sumto_ext. intros i Hi. f_equal. apply (repeat_spec n (/ INR n)%R). apply nth_In. now rewrite repeat_length. }
      pose proof (state_errors lowest LU LD HU HD PD C fr fp fx fw fg good usable Hsep n b j Hn Hj kappa G tau thr Hka HG Htau Hthr Hres move movable Hfair Hmove (m_get (ts_val x0) 0 0)
        cf Hev phi B HB Hphi ys ltac:(apply Forall_forall; exact Hys) fuel k r s w (fun w => square (est x0 w * avg phi x0 w - m))%R 2%R (2 * square (N x0 - m))%R
        Hfuel Hso ltac:(rewrite T'; exact He) ltac:(rewrite T'; exact Hk) ltac:(lra)) as H.
      rewrite T' in H. fold h in H. rewrite Ev in H. fold S0 in H. rewrite Rplus_comm. apply H. intros w' _.
      unfold run_estimate, run_mean, west. rewrite Es.
      set (e := (_ * _)%R). pose proof (square_plus (e - N x0) (N x0 - m)) as Q. replace (e - N x0 + (N x0 - m))%R with (e - m)%R in Q by ring. exact Q.
    - refine (at_most_weaken LX _ _ _ _ (fun _ _ => Rle_refl _) (at_most_affine LX HX 2 (2 * S0) _ _ ltac:(lra) Hm) _).
      unfold rate. assert (0 < INR n)%R by (apply lt_0_INR; exact Hn).
      replace ((2 * (INR K * (4 / tau + 2 * kappa) * (4 * square G) ^ K) + 2 * square (G ^ K)) * square B / INR n)%R
        with (2 * (square (G ^ K * B) / INR n) + 2 * (INR K * (4 / tau + 2 * kappa) * (4 * square G) ^ K * square B / INR n))%R by (unfold square; field; lra).
      lra.
  Qed.

  (** Runs end in proper states. *)
  Lemma run_mean_bound phi B x0 w' : converging -> (0 <= B)%R -> (forall x, good x -> (Rabs (phi x) <= B)%R) -> supp LX x0 -> possible LU LD w' -> (Rabs (avg phi x0 w') <= B)%R.
  Proof.
    intros [(HU & HD & HX & PD) Hsep (Hn & Hj) (Hka & HG & Htau & Hthr) Hres Hfair Hmove (Hev & Hfuel) Hys Hk Hx0 Hw] HB Hphi Hs Hw'.
    destruct (Hx0 x0 Hs) as (T & Sh & Gd). destruct (initialize_ok lowest n b x0 Hn Sh) as (s & Es & Hok & Ex & _). unfold run_mean. rewrite Es. unfold last_mean.
    destruct (batch_filter _ _ _ _ _ _ _ s) as [[[[c r'] l]|]|] eqn:Eb; try (rewrite Rabs_R0; exact HB).
    apply (mean_bound lowest good n b j Hn Hj cf Hev phi B Hphi).
    apply (run_sok lowest LU LD HU C fr fp fx fw fg good usable Hsep n b j Hn Hj kappa tau thr Hka Htau Hthr Hres (m_get (ts_val x0) 0 0) cf Hev w' Hw' ys fuel r s c r' l); [now apply Forall_forall|split; [exact Hok|now rewrite Ex]|exact Eb].
  Qed.
  Lemma run_mean_one x0 w' : converging -> supp LX x0 -> possible LU LD w' -> (est x0 w' * avg (fun _ => 1%R) x0 w')%R = est x0 w'.
  Proof.
    intros [(HU & HD & HX & PD) Hsep (Hn & Hj) (Hka & HG & Htau & Hthr) Hres Hfair Hmove (Hev & Hfuel) Hys Hk Hx0 Hw] Hs Hw'.
    destruct (Hx0 x0 Hs) as (T & Sh & Gd). destruct (initialize_ok lowest n b x0 Hn Sh) as (s & Es & Hok & Ex & _). unfold run_mean, run_estimate. rewrite Es. unfold last_mean, estimate.
    destruct (batch_filter _ _ _ _ _ _ _ s) as [[[[c r'] l]|]|] eqn:Eb; [|ring|ring].
    assert (Hc : sok good n b c).
    { apply (run_sok lowest LU LD HU C fr fp fx fw fg good usable Hsep n b j Hn Hj kappa tau thr Hka Htau Hthr Hres (m_get (ts_val x0) 0 0) cf Hev w' Hw' ys fuel r s c r' l); [now apply Forall_forall|split; [exact Hok|now rewrite Ex]|exact Eb]. }
    destruct (sok_weights lowest good n b j Hn Hj c Hc) as [HW LW].
    replace (filter_mean lowest n j (fun _ => 1%R) c) with 1%R; [ring|]. unfold filter_mean. change (sum_below n) with (sumto n).
    rewrite (sumto_ext n _ (fun i => nth i (imp lowest (col (c_w c) j)) 0%R)) by (intros; ring). rewrite <- LW, <- Rsum_nth. symmetry. apply HW.
  Qed.

  (** The likelihood estimate. *)
  Theorem C94_likelihood m : converging -> has_expected move movable every (fun _ => 1%R) 0 ys' ->
    starts LX n j (expected move every (fun _ => 1%R) 0 ys') (G ^ K) m ->
    at_most_from LX LU LD k r (fun x0 w => square (est x0 w - m)) w (rate kappa G tau K / INR n)%R.
  Proof.
    intros Hc He Hm. pose proof Hc as [(HU & HD & HX & PD) _ _ _ _ _ _ _ _ _ _ Hw].
    destruct (weighted_error (fun _ => 1%R) 1 m Hc ltac:(lra) ltac:(intros; right; exact Rabs_R1) He ltac:(rewrite Rmult_1_r; exact Hm)) as (F & HF & HX').
    exists F. split.
    - intros x0 Hs. apply (over_most_possible LU LD k r _ (fun w => square (est x0 w * avg (fun _ => 1%R) x0 w - m)) w (F x0)); [exact Hw| |lra|now apply HF].
      intros w' Hw' _. right. do 2 f_equal. symmetry. now apply run_mean_one.
    - apply (at_most_weaken LX F F _ _ ltac:(intros; lra) HX'). right. unfold square. unfold Rdiv. ring.
  Qed.
  (** ... is close to the likelihood with a probability that tends to one. *)
  Theorem C94_likelihood_probability m eps : converging -> has_expected move movable every (fun _ => 1%R) 0 ys' ->
    starts LX n j (expected move every (fun _ => 1%R) 0 ys') (G ^ K) m -> (0 < eps)%R ->
    at_most_from LX LU LD k r (fun x0 w => if Rle_dec eps (Rabs (est x0 w - m)) then 1 else 0)%R w (rate kappa G tau K / (square eps * INR n))%R.
  Proof.
    intros Hc He Hm Heps. pose proof Hc as [(HU & HD & HX & PD) _ (Hn & _) _ _ _ _ _ _ _ _ Hw]. pose proof (lt_0_INR n Hn) as Hn0.
    destruct (C94_likelihood m Hc He Hm) as (F & HF & HX'). assert (Hsq : (0 < square eps)%R) by (unfold square; nra).
    exists (fun x0 => / square eps * F x0 + 0)%R. split.
    - intros x0 Hs. pose proof (over_most_lin LU LD HU HD k r _ (fun _ => 0%R) w (F x0) 0 (/ square eps) 1 ltac:(left; now apply Rinv_0_lt_compat) ltac:(lra) (HF x0 Hs)
        ltac:(apply over_most_const; [exact HU|exact HD|intros; lra])) as H.
      apply (over_most_weaken LU LD k r _ (fun w => / square eps * square (est x0 w - m) + 1 * 0)%R w (/ square eps * F x0 + 1 * 0)%R); [|lra|exact H].
      intros w' _. cbn beta. set (e := run_estimate _ _ _ _ _ _ _ _ _ _ _). pose proof (square_nonneg (e - m)) as P.
      assert (0 < / square eps)%R by now apply Rinv_0_lt_compat.
      destruct (Rle_dec eps (Rabs (e - m))) as [Q|Q]; [|nra].
      assert (square eps <= square (e - m))%R.
      { unfold square. rewrite <- (Rabs_right ((e - m) * (e - m))) by (apply Rle_ge; exact P). rewrite Rabs_mult. nra. }
      replace 1%R with (/ square eps * square eps)%R at 1 by (field; lra). nra.
    - refine (at_most_weaken LX _ _ _ _ (fun _ _ => Rle_refl _) (at_most_affine LX HX (/ square eps) 0 _ _ ltac:(left; now apply Rinv_0_lt_compat) HX') _).
      right. field. lra.
  Qed.
  (** The mean of a bounded quantity under the last state: it converges to its mean given the observations, [m / l]. *)
  Theorem C94_mean phi B m l : converging -> (0 <= B)%R -> (forall x, good x -> (Rabs (phi x) <= B)%R) ->
    has_expected move movable every phi 0 ys' -> starts LX n j (expected move every phi 0 ys') (G ^ K * B) m ->
    has_expected move movable every (fun _ => 1%R) 0 ys' -> starts LX n j (expected move every (fun _ => 1%R) 0 ys') (G ^ K) l -> (0 < l)%R ->
    at_most_from LX LU LD k r (fun x0 w => square (avg phi x0 w - m / l)) w (4 * square B * rate kappa G tau K / (square l * INR n))%R.
  Proof.
    intros Hc HB Hphi He Hm He1 Hl Hpos. pose proof Hc as [(HU & HD & HX & PD) _ (Hn & _) _ _ _ _ _ _ _ _ Hw]. pose proof (lt_0_INR n Hn) as Hn0.
    destruct (C94_likelihood l Hc He1 Hl) as (F1 & HF1 & HX1). destruct (weighted_error phi B m Hc HB Hphi He Hm) as (F2 & HF2 & HX2).
    assert (Hq : (0 < 2 / square l)%R) by (apply Rmult_lt_0_compat; [lra|apply Rinv_0_lt_compat; unfold square; nra]).
    pose proof (square_nonneg B) as HB2. assert (Hq2 : (0 <= 2 / square l * square B)%R) by (apply Rmult_le_pos; lra).
    exists (fun x0 => 2 / square l * F2 x0 + 2 / square l * square B * F1 x0)%R. split.
    - intros x0 Hs.
      pose proof (over_most_lin LU LD HU HD k r _ _ w _ _ (2 / square l) (2 / square l * square B) ltac:(lra) Hq2 (HF2 x0 Hs) (HF1 x0 Hs)) as H.
      refine (over_most_possible LU LD k r _ _ w _ _ Hw _ (Rle_refl _) H). intros w' Hw' _.
      pose proof (square_abs _ _ (run_mean_bound phi B x0 w' Hc HB Hphi Hs Hw')) as Hb. cbn beta in *.
      set (a := run_mean _ _ _ _ _ _ _ _ _ _ _ _) in *. set (e := run_estimate _ _ _ _ _ _ _ _ _ _ _) in *.
      assert (El : (a - m / l)%R = (/ l * ((e * a - m) + - a * (e - l)))%R) by (field; lra). rewrite El.
      replace (square (/ l * (e * a - m + - a * (e - l)))) with (/ square l * square (e * a - m + - a * (e - l)))%R by (unfold square; field; lra).
      pose proof (square_plus (e * a - m) (- a * (e - l))) as Q.
      replace (square (- a * (e - l))) with (square a * square (e - l))%R in Q by (unfold square; ring).
      pose proof (Rmult_le_compat_r _ _ _ (square_nonneg (e - l)) Hb) as Q2.
      assert (0 < / square l)%R by (apply Rinv_0_lt_compat; unfold square; nra).
      replace (2 / square l * square (e * a - m) + 2 / square l * square B * square (e - l))%R
        with (/ square l * (2 * square (e * a - m) + 2 * (square B * square (e - l))))%R by (unfold Rdiv; ring).
      apply Rmult_le_compat_l; lra.
    - refine (at_most_weaken LX _ _ _ _ (fun _ _ => Rle_refl _) (at_most_lin LX HX _ _ _ _ _ _ (Rlt_le _ _ Hq) Hq2 HX2 HX1) _).
      right. field. split; [lra|]. unfold square. nra.
  Qed.
End Converge.
Print Assumptions C94_likelihood.
Print Assumptions C94_likelihood_probability.
Print Assumptions C94_mean.

(** * The bootstrap proposal with multinomial resampling *)
Section Bootstrap.
  Context {E : Type} (M : ssm) (step : nat -> nat -> xf -> E -> xf) (K : law E) (e0 : E) (K0 : law xf) (x00 : xf).
  Variables (lowest : R) (n b : nat).
  (** resampling.py:55-65 as called by the filters (sisr.py:36), for a batch; each filter has its own uniform numbers. *)
  Definition multinomial_mat (u : nat -> nat -> R) (flag : bool) (w : mat xf) : res (mat nat) :=
    match multinomial lowest (fun k => inverted (u k)) (W2 w) flag with
    | Ok (I2 i) => Ok i
    | Ok (I1 _) => Raise RuntimeError
    | Raise e => Raise e
    end.
  Definition multinomial_chances (normals : nat -> nat -> nat -> R) autodiff pick : @chances xf (nat -> R) (nat * (nat -> E)) :=
    Chances multinomial_mat
      (fun d => hid_propagate (driven M step (fun j => snd (d j))) 0)
      (fun d y => sample_weigh (driven M step (fun j => snd (d j))) normals autodiff pick lowest PBootstrap 0 (hd NaN y))
      (fun y => look_ahead M PBootstrap (hd NaN y)).
  Definition uniforms : law (nat -> nat -> R) := independent (independent uniform n (fun _ => (/ 2)%R)) b (fun _ _ => (/ 2)%R).

  (** Column by column. *)
  Definition boot_fp (d : nat * (nat -> E)) t xs := map (fun i => step t (fst d) (nth i xs NaN) (snd d i)) (seq 0 (length xs)).
  Definition boot_fr flag (u : nat -> R) l := selected1 (multinomial lowest (fun _ => inverted u) (W1 l) flag).
  Definition boot_fx (d : nat * (nat -> E)) (y : list xf) t xs (_ _ : list xf) := boot_fp d t xs.
  Definition boot_fw (d : nat * (nat -> E)) (y : list xf) t xs (_ _ : list xf) := map (fun x => obs_logp M (S t) (fst d) x (hd NaN y)) (boot_fp d t xs).
  Definition boot_fg k (y : list xf) t xs := map (fun x => obs_logp M (S t) k (fst (mean_scale M t k x)) (hd NaN y)) xs.
  Definition number (y : list xf) : Prop := is_fin (hd NaN y).

  (** The model: the hidden process and the density of the observations are numbers, the density at most [G]. *)
  Record bounded_model (G : R) (j : nat) : Prop := {
    bm_laws : law_ok K /\ law_pos K /\ law_ok K0 /\ supp K e0 /\ supp K0 x00;
    bm_start : forall x, supp K0 x -> is_fin x;
    bm_step : forall t i x e, is_fin x -> supp K e -> is_fin (step t i x e);
    bm_density : forall t i x y, is_fin x -> is_fin y -> is_fin (obs_logp M t i x y);
    bm_ahead : forall t i x, is_fin x -> is_fin (fst (mean_scale M t i x));
    bm_bound : forall t x y, is_fin x -> is_fin y -> (exp (real_of (obs_logp M t j x y)) <= G)%R
  }.
  Variables (j : nat) (G : R).
  Hypothesis HM : bounded_model G j.
  Hypothesis Hn : 0 < n.
  Hypothesis Hj : j < b.
  Hypothesis HG : (1 <= G)%R.
  Variables (normals : nat -> nat -> nat -> R) (autodiff : (xf -> xf) -> (xf -> xf)) (pick : nat -> nat -> nat -> list xf -> nat).
  Notation C := (multinomial_chances normals autodiff pick).

  Lemma base_e : forall k : nat, supp K e0. Proof. intros. apply HM. Qed.
  Lemma base_x : forall k : nat, supp K0 x00. Proof. intros. apply HM. Qed.
  Lemma OK1 : law_ok (independent K n (fun _ => e0)). Proof. apply independent_ok; [apply HM|exact base_e]. Qed.
  Lemma S1 : forall q : nat, supp (independent K n (fun _ => e0)) (fun _ => e0). Proof. intros. apply supp_independent. exact base_e. Qed.
  Lemma OK2 : law_ok (independent (independent K n (fun _ => e0)) b (fun _ _ => e0)). Proof. apply independent_ok; [exact OK1|exact S1]. Qed.
  Lemma OX1 : law_ok (independent K0 n (fun _ => x00)). Proof. apply independent_ok; [apply HM|exact base_x]. Qed.
  Lemma SX1 : forall q : nat, supp (independent K0 n (fun _ => x00)) (fun _ => x00). Proof. intros. apply supp_independent. exact base_x. Qed.
  Lemma OX2 : law_ok (independent (independent K0 n (fun _ => x00)) b (fun _ _ => x00)). Proof. apply independent_ok; [exact OX1|exact SX1]. Qed.
  Lemma OU1 : law_ok (independent uniform n (fun _ => (/ 2)%R)). Proof. apply independent_ok; [exact uniform_ok|intros; cbn; lra]. Qed.
  Lemma SU1 : forall q : nat, supp (independent uniform n (fun _ => (/ 2)%R)) (fun _ => (/ 2)%R). Proof. intros. apply supp_independent. intros; cbn; lra. Qed.
  Lemma OU2 : law_ok uniforms. Proof. apply independent_ok; [exact OU1|exact SU1]. Qed.
  Lemma noise_spec d : supp (noise K e0 n b) d -> (forall q, fst (d q) = q) /\ forall q i, supp K (snd (d q) i).
  Proof.
    intros (e & He & <-). split; [reflexivity|]. intros q i. cbn [snd]. pose proof (proj1 (supp_independent _ _ _ _) He q) as H1.
    exact (proj1 (supp_independent _ _ _ _) H1 i).
  Qed.
  Lemma length_fp d t xs : length (boot_fp d t xs) = length xs.
  Proof. unfold boot_fp. now rewrite map_length, seq_length. Qed.
  Lemma fp_col (x : tstate xf) d q : fst d = q ->
    col (Mat (m_rows (ts_val x)) (m_cols (ts_val x)) (fun i j => step (ts_time x) j (m_get (ts_val x) i j) (snd d i))) q = boot_fp d (ts_time x) (col (ts_val x) q).
  Proof.
    intros Hd. unfold boot_fp, col. cbn [m_rows m_get]. rewrite map_length, seq_length. apply map_ext_in. intros i Hi. apply in_seq in Hi.
    rewrite Hd. do 2 f_equal. change (map _ (seq 0 (m_rows (ts_val x)))) with (col (ts_val x) q). symmetry. apply nth_col. lia.
  Qed.
  Lemma fp_good d q t xs : supp (noise K e0 n b) d -> List.Forall is_fin xs -> List.Forall is_fin (boot_fp (d q) t xs).
  Proof.
    intros Hd Hxs. destruct (noise_spec d Hd) as [D1 D2]. unfold boot_fp. apply Forall_forall. intros x Hx. apply in_map_iff in Hx. destruct Hx as (i & <- & Hi).
    apply in_seq in Hi. apply (bm_step _ _ HM); [|apply D2]. apply (proj1 (Forall_forall _ _) Hxs). apply nth_In. lia.
  Qed.
  Lemma boot_separate : separate uniforms (noise K e0 n b) C is_fin number boot_fr boot_fp boot_fx boot_fw boot_fg.
  Proof.
    constructor.
    - intros w' r' flag Hw m Hm.
      destruct (C95_multinomial_columnwise lowest (fun k => inverted (fst (w' r') k)) m flag Hm) as (out & Eo & R1 & R2 & Hc).
      { intros q p Hp. eexists. split; [reflexivity|]. now rewrite map_length, seq_length. }
      exists out. cbn [at_stream resampler C resample]. unfold multinomial_mat. rewrite Eo. split; [reflexivity|]. split; [now split|]. split.
      + apply (fin_cols n b j Hn Hj). intros q Hq. rewrite R2 in Hq. specialize (Hc q Hq). unfold multinomial, wrapper in Hc.
        assert (Hu : forall i, (fst (w' r') q i <= 1)%R).
        { intros i. pose proof (proj1 (supp_independent _ _ _ _) (proj1 (supp_independent _ _ _ _) Hw q) i) as H. cbn in H. lra. }
        assert (Ep : exists p, (if flag then Ok (W1 (col m q)) else normalize_arg lowest (W1 (col m q))) = Ok (W1 p) /\ length p = m_rows m).
        { destruct flag; [exists (col m q); split; [reflexivity|apply length_col]|]. cbn [normalize_arg].
          assert (Hne : col m q <> []) by (intros E'; apply (f_equal (@length xf)) in E'; rewrite length_col in E'; simpl in E'; lia).
          destruct (normalize_shape lowest (col m q) Hne) as (o & a & En & Hl & _). rewrite En. exists o. split; [reflexivity|]. now rewrite Hl, length_col. }
        destruct Ep as (p & Ep & Lp). rewrite Ep in Hc.
        cbn [multinomial_rows inverted bind nth] in Hc. injection Hc as <-. apply Forall_forall. intros i Hi. apply in_map_iff in Hi. destruct Hi as (i' & <- & _).
        rewrite <- Lp. apply chosen_lt; [|apply Hu]. intros ->. simpl in Lp. lia.
      + intros q Hq. unfold boot_fr. now rewrite (Hc q Hq).
    - intros d Hd x. destruct (noise_spec d Hd) as [D1 D2]. split; [reflexivity|]. split; [now split|]. intros q Hq. apply fp_col, D1.
    - intros w' r' Hd y x v nv. destruct (noise_spec _ Hd) as [D1 D2]. cbn zeta. split; [reflexivity|]. split; [now split|]. split; [now split|]. intros q Hq.
      cbn [at_stream sample_and_weight C multinomial_chances propose sample_weigh bootstrap fst snd hid_propagate propagate_from ts_val].
      split; [apply fp_col, D1|]. unfold boot_fw. rewrite <- (fp_col x (snd (w' r') q) q (D1 q)). rewrite D1. unfold obs_weight, col. cbn. rewrite map_map. reflexivity.
    - intros y x. split; [now split|]. intros q Hq. cbn [C multinomial_chances look look_ahead]. unfold affine_pre_weight, obs_weight, boot_fg, col, like. cbn. rewrite map_map. reflexivity.
    - intros d q t xs Hd Hxs. now apply fp_good.
    - intros d q y t xs ws nws Hd Hy Hxs. pose proof (fp_good d q t xs Hd Hxs) as Gd. split; [exact Gd|]. unfold boot_fw. apply Forall_forall. intros x Hx.
      apply in_map_iff in Hx. destruct Hx as (x' & <- & Hx'). apply (bm_density _ _ HM); [|exact Hy]. now apply (proj1 (Forall_forall _ _) Gd).
    - intros q y t xs Hy Hxs. unfold boot_fg. apply Forall_forall. intros x Hx. apply in_map_iff in Hx. destruct Hx as (x' & <- & Hx').
      apply (bm_density _ _ HM); [|exact Hy]. apply (bm_ahead _ _ HM). now apply (proj1 (Forall_forall _ _) Hxs).
  Qed.
  Lemma boot_resampling : steady_resampling uniforms 1 n b boot_fr.
  Proof.
    intros k W F B Hk HW LW HB. pose proof (C95_multinomial lowest _ (independent uniform n (fun _ => (/ 2)%R)) inverted W F OU1) as H.
    rewrite LW in H. specialize (H (inverted_independent n n (le_n n)) HW).
    pose proof (independent_one _ OU1 _ SU1 b k _ _ H Hk) as H'. refine (at_most_weaken _ _ _ _ _ _ (at_most_of _ _ _ H') _).
    - intros u Hu. cbn beta. unfold error_of. rewrite LW. right. reflexivity.
    - rewrite Rmult_1_l. apply Rmult_le_compat_r; [left; apply Rinv_0_lt_compat, lt_0_INR; exact Hn|]. apply variance_bound; [exact HW|]. now rewrite LW.
  Qed.
  Lemma nth_fp d t xs i z : fst d = j -> length xs = n -> i < n -> nth i (boot_fp d t xs) z = step t j (nth i xs z) (snd d i).
  Proof.
    intros D1 Lx Hi. unfold boot_fp. rewrite D1. rewrite (nth_map' _ _ _ z 0) by (rewrite seq_length; lia). rewrite seq_nth by lia. cbn [Nat.add]. f_equal. apply nth_indep. lia.
  Qed.
  Notation move := (moves M step K j).
  Notation mov := (movable M step K j).
  Lemma boot_fair : fair_moves (noise K e0 n b) is_fin n j move mov boot_fp boot_fx boot_fw.
  Proof.
    assert (Hone : forall i g m, i < n -> averages K g m -> averages (noise K e0 n b) (fun d => g (snd (d j) i)) m).
    { intros i g m Hi Hg. apply averages_image. cbn [snd].
      apply (independent_one _ OK1 _ S1 b j (fun e => g (e i))); [|exact Hj]. apply (independent_one K (proj1 (bm_laws _ _ HM)) _ base_e n i g); assumption. }
    split.
    - intros t xs i f d Lx Gx Hi Hm.
      assert (Gi : is_fin (nth i xs d)) by (apply (proj1 (Forall_forall _ _) Gx), nth_In; lia).
      apply (averages_ext _ (image_ok _ _ OK2) (fun e => next M step j t None f (nth i xs d) (snd (e j) i))).
      + intros e He. destruct (noise_spec e He) as [D1 D2]. unfold next. f_equal. symmetry. now apply nth_fp.
      + apply Hone; [exact Hi|]. split; [now apply Hm|reflexivity].
    - intros y t xs ws nws i f d Lx Gx Hi Hm.
      assert (Gi : is_fin (nth i xs d)) by (apply (proj1 (Forall_forall _ _) Gx), nth_In; lia).
      apply (averages_ext _ (image_ok _ _ OK2) (fun e => next M step j t (Some y) f (nth i xs d) (snd (e j) i))).
      + intros e He. destruct (noise_spec e He) as [D1 D2]. unfold next, boot_fw, boot_fx. rewrite D1.
        rewrite (nth_map' _ (boot_fp (e j) t xs) i NaN d) by (rewrite length_fp; lia). now rewrite nth_fp.
      + apply Hone; [exact Hi|]. split; [now apply Hm|reflexivity].
  Qed.
  Lemma noise_most g c : at_most (independent K n (fun _ => e0)) g c -> at_most (noise K e0 n b) (fun d => g (snd (d j))) c.
  Proof.
    intros H. apply (image_most (fun e k => (k, e k)) (fun d k => snd (d k))); [exact OK2|reflexivity|]. cbn [snd].
    exact (independent_most _ OK1 _ S1 b j g c Hj H).
  Qed.
  Lemma boot_steady : steady_moves (noise K e0 n b) is_fin number G n j move mov boot_fp boot_fx boot_fw.
  Proof.
    constructor.
    - intros d y t xs ws nws i Hd Hy Lx Gx Hi. destruct (noise_spec d Hd) as [D1 D2]. unfold boot_fw.
      rewrite (nth_map' _ (boot_fp (d j) t xs) i NaN NaN) by (rewrite length_fp; lia). rewrite D1. apply (bm_bound _ _ HM); [|exact Hy].
      apply (proj1 (Forall_forall _ _) (fp_good d j t xs Hd Gx)), nth_In. rewrite length_fp. lia.
    - intros t xs f B a z Lx Gx Hm HB.
      pose proof (independent_square K (proj1 (bm_laws _ _ HM)) (fun _ => e0) base_e n n (fun i e => next M step j t None f (nth i xs z) e) (fun i => move t None f (nth i xs z)) B a (le_n n)) as H.
      refine (at_most_weaken _ _ _ _ _ _ (noise_most _ _ (H _ _)) (Rle_refl _)).
      + intros d Hd. destruct (noise_spec d Hd) as [D1 D2]. right. do 2 f_equal. apply (sumto_ext n). intros i Hi. unfold next. now rewrite nth_fp.
      + intros i Hi. split; [apply Hm, (proj1 (Forall_forall _ _) Gx), nth_In; lia|reflexivity].
      + intros i x Hi Hx. unfold next. apply HB, (bm_step _ _ HM); [|exact Hx]. apply (proj1 (Forall_forall _ _) Gx), nth_In. lia.
    - intros y t xs ws nws f B a z Hy Lx Gx Hm HB.
      pose proof (independent_square K (proj1 (bm_laws _ _ HM)) (fun _ => e0) base_e n n (fun i e => next M step j t (Some y) f (nth i xs z) e) (fun i => move t (Some y) f (nth i xs z)) (G * B) a (le_n n)) as H.
      refine (at_most_weaken _ _ _ _ _ _ (noise_most _ _ (H _ _)) (Rle_refl _)).
      + intros d Hd. destruct (noise_spec d Hd) as [D1 D2]. right. do 2 f_equal. apply (sumto_ext n). intros i Hi. unfold next, boot_fw, boot_fx. rewrite D1.
        rewrite (nth_map' _ (boot_fp (d j) t xs) i NaN z) by (rewrite length_fp; lia). now rewrite nth_fp.
      + intros i Hi. split; [apply Hm, (proj1 (Forall_forall _ _) Gx), nth_In; lia|reflexivity].
      + intros i x Hi Hx. unfold next.
        assert (Gs : is_fin (step t j (nth i xs z) x)) by (apply (bm_step _ _ HM); [|exact Hx]; apply (proj1 (Forall_forall _ _) Gx), nth_In; lia).
        rewrite Rabs_mult. rewrite (Rabs_right (exp _)) by (left; apply exp_pos).
        apply Rmult_le_compat; [left; apply exp_pos|apply Rabs_pos|apply (bm_bound _ _ HM); [exact Gs|exact Hy]|now apply HB].
  Qed.

  Variables (tau thr : R) (cf : fconf) (fuel : nat) (ys : list (list xf)) (k r : nat) (w : filter_stream (nat -> R) (nat * (nat -> E))).
  Hypothesis Htau : (0 < tau <= 1 /\ tau * INR n <= thr)%R.
  Hypothesis Hev : observe_every cf <> 0 /\ observe_every cf <= fuel.
  Hypothesis Hys : forall y, In y ys -> exists v, y = [v] /\ (is_fin v \/ v = NaN).
  Hypothesis Hk : draws (observe_every cf) 0 (map seen ys) <= k.
  Hypothesis Hw : possible uniforms (noise K e0 n b) w.
  Lemma noise_pos : law_pos (noise K e0 n b).
  Proof. apply image_pos, independent_pos; [exact S1|]. apply independent_pos; [exact base_e|apply HM]. Qed.
  Lemma data_number y : In y ys -> seen y <> None -> number y.
  Proof. intros Hy Hs. destruct (Hys y Hy) as (v & -> & [Hv| ->]); [exact Hv|]. now contradiction Hs. Qed.
  Lemma boot_converging : converging uniforms (noise K e0 n b) (initial K0 x00 n b) C is_fin number boot_fr boot_fp boot_fx boot_fw boot_fg n b j 1 G tau thr
    move mov cf fuel ys k w.
  Proof.
    constructor.
    - split; [exact OU2|]. split; [exact (image_ok _ _ OK2)|]. split; [exact (image_ok _ _ OX2)|exact noise_pos].
    - exact boot_separate.
    - now split.
    - destruct Htau. repeat split; try lra; assumption.
    - exact boot_resampling.
    - exact boot_fair.
    - exact boot_steady.
    - exact Hev.
    - exact data_number.
    - exact Hk.
    - intros x0 (z & Hz & <-). split; [reflexivity|]. split; [now split|]. intros i q Hi Hq. cbn [m_get ts_val]. apply (bm_start _ _ HM).
      pose proof (proj1 (supp_independent _ _ _ _) Hz q) as H1. exact (proj1 (supp_independent _ _ _ _) H1 i).
    - exact Hw.
  Qed.
  Lemma boot_starts phi B : (0 <= B)%R -> (forall x, is_fin x -> (Rabs (phi x) <= B)%R) -> has_expected move mov (observe_every cf) phi 0 (map seen ys) ->
    dom K0 (expected move (observe_every cf) phi 0 (map seen ys)) ->
    starts (initial K0 x00 n b) n j (expected move (observe_every cf) phi 0 (map seen ys)) (G ^ steps (observe_every cf) 0 (map seen ys) * B) (mean K0 (expected move (observe_every cf) phi 0 (map seen ys))).
  Proof.
    intros HB Hphi He Hd. set (h := expected _ _ _ _ _) in *. unfold starts. pose proof (lt_0_INR n Hn) as Hn0.
    apply (image_most _ (fun (x0 : tstate xf) j i => m_get (ts_val x0) i j)); [exact OX2|reflexivity|]. cbn [ts_val m_get].
    apply (independent_most _ OX1 _ SX1 b j (fun z => square (sum_below n (fun i => / INR n * h (z i)) - mean K0 h))%R); [exact Hj|].
    pose proof (independent_square K0 ltac:(apply HM) (fun _ => x00) base_x n n (fun _ x => h x) (fun _ => mean K0 h) (G ^ steps (observe_every cf) 0 (map seen ys) * B) (fun _ => / INR n)%R (le_n n)) as H.
    assert (Ec : forall c, sumto n (fun _ => c) = (INR n * c)%R).
    { clear. intros c. induction n as [|m IH]; [unfold sumto, Rsum; cbn; ring|]. rewrite sumto_S, IH, S_INR. ring. }
    cbv beta in H. rewrite (Ec (/ INR n * mean K0 h))%R, (Ec (square (/ INR n))) in H. refine (at_most_weaken _ _ _ _ _ _ (H _ _) _).
    - intros z _. right. replace (INR n * (/ INR n * mean K0 h))%R with (mean K0 h) by (field; lra). reflexivity.
    - intros i Hi. now split.
    - intros i x Hi Hx. apply (bm_start _ _ HM) in Hx.
      apply (expected_bound uniforms (noise K e0 n b) (image_ok _ _ OK2) noise_pos C boot_fr boot_fp boot_fx boot_fw boot_fg is_fin number boot_separate n b j Hn Hj G HG move mov boot_fair boot_steady NaN cf (proj1 Hev) phi B HB Hphi w ys 0);
        [apply Forall_forall; exact data_number|exact He|exact Hx].
    - right. unfold square. field. lra.
  Qed.
End Bootstrap.

(** Bootstrap SISR with multinomial resampling: the likelihood estimate ... *)
Theorem C94_bootstrap : forall (E : Type) (M : ssm) step (K : law E) e0 (K0 : law xf) x00 lowest n b j G normals autodiff pick tau thr cf fuel ys k r w,
  bounded_model M step K e0 K0 x00 G j -> 0 < n -> j < b -> (1 <= G)%R -> (0 < tau <= 1 /\ tau * INR n <= thr)%R ->
  observe_every cf <> 0 /\ observe_every cf <= fuel ->
  (forall y, In y ys -> exists v, y = [v] /\ (is_fin v \/ v = NaN)) ->
  let ys' := map seen ys in
  let h := expected (moves M step K j) (observe_every cf) (fun _ => 1%R) 0 ys' in
  has_expected (moves M step K j) (movable M step K j) (observe_every cf) (fun _ => 1%R) 0 ys' -> dom K0 h ->
  draws (observe_every cf) 0 ys' <= k -> possible (uniforms n b) (noise K e0 n b) w ->
  let C := multinomial_chances M step lowest normals autodiff pick in
  at_most_from (initial K0 x00 n b) (uniforms n b) (noise K e0 n b) k r
    (fun x0 w => square (run_estimate lowest (at_stream C w) (SISR thr) cf fuel r ys n b j x0 - mean K0 h)) w
    (rate 1 G tau (steps (observe_every cf) 0 ys') / INR n)%R.
Proof.
  intros E M step K e0 K0 x00 lowest n b j G normals autodiff pick tau thr cf fuel ys k r w HM Hn Hj HG Htau Hev Hys ys' h He Hd Hk Hw C.
  refine (C94_likelihood lowest _ _ _ C is_fin number (boot_fr lowest) (boot_fp step) (boot_fx step) (boot_fw M step) (boot_fg M) n b j 1 G tau thr _ (movable M step K j) cf fuel ys k r w (mean K0 h) _ He _).
  - apply (boot_converging M step K e0 K0 x00); assumption.
  - pose proof (boot_starts M step K e0 K0 x00 lowest n b j G HM Hn Hj HG normals autodiff pick cf fuel ys w Hev Hys (fun _ => 1%R) 1 ltac:(lra) ltac:(intros; right; exact Rabs_R1)) as H.
    rewrite Rmult_1_r in H. now apply H.
Qed.
Print Assumptions C94_bootstrap.
(** ... and the mean of a bounded quantity under the weights of the last state, which estimates its mean given the observations. *)
Theorem C94_bootstrap_mean : forall (E : Type) (M : ssm) step (K : law E) e0 (K0 : law xf) x00 lowest n b j G normals autodiff pick tau thr cf fuel ys k r w (phi : xf -> R) B,
  bounded_model M step K e0 K0 x00 G j -> 0 < n -> j < b -> (1 <= G)%R -> (0 < tau <= 1 /\ tau * INR n <= thr)%R ->
  observe_every cf <> 0 /\ observe_every cf <= fuel ->
  (forall y, In y ys -> exists v, y = [v] /\ (is_fin v \/ v = NaN)) ->
  (0 <= B)%R -> (forall x, is_fin x -> (Rabs (phi x) <= B)%R) ->
  let ys' := map seen ys in
  let h f := expected (moves M step K j) (observe_every cf) f 0 ys' in
  has_expected (moves M step K j) (movable M step K j) (observe_every cf) phi 0 ys' -> dom K0 (h phi) ->
  has_expected (moves M step K j) (movable M step K j) (observe_every cf) (fun _ => 1%R) 0 ys' -> dom K0 (h (fun _ => 1%R)) ->
  (0 < mean K0 (h (fun _ => 1%R)))%R ->
  draws (observe_every cf) 0 ys' <= k -> possible (uniforms n b) (noise K e0 n b) w ->
  let C := multinomial_chances M step lowest normals autodiff pick in
  let l := mean K0 (h (fun _ => 1%R)) in
  at_most_from (initial K0 x00 n b) (uniforms n b) (noise K e0 n b) k r
    (fun x0 w => square (run_mean lowest phi (at_stream C w) (SISR thr) cf fuel r ys n b j x0 - mean K0 (h phi) / l)) w
    (4 * square B * rate 1 G tau (steps (observe_every cf) 0 ys') / (square l * INR n))%R.
Proof.
  intros E M step K e0 K0 x00 lowest n b j G normals autodiff pick tau thr cf fuel ys k r w phi B HM Hn Hj HG Htau Hev Hys HB Hphi ys' h He Hd He1 Hd1 Hpos Hk Hw C l.
  refine (C94_mean lowest _ _ _ C is_fin number (boot_fr lowest) (boot_fp step) (boot_fx step) (boot_fw M step) (boot_fg M) n b j 1 G tau thr _ (movable M step K j) cf fuel ys k r w phi B _ l _ HB Hphi He _ He1 _ Hpos).
  - apply (boot_converging M step K e0 K0 x00); assumption.
  - exact (boot_starts M step K e0 K0 x00 lowest n b j G HM Hn Hj HG normals autodiff pick cf fuel ys w Hev Hys phi B HB Hphi He Hd).
  - pose proof (boot_starts M step K e0 K0 x00 lowest n b j G HM Hn Hj HG normals autodiff pick cf fuel ys w Hev Hys (fun _ => 1%R) 1 ltac:(lra) ltac:(intros; right; exact Rabs_R1)) as H.
    rewrite Rmult_1_r in H. now apply H.
Qed.
Print Assumptions C94_bootstrap_mean.

(** The process of C86 for any number of particles, a threshold of nine tenths; the quantity: whether the process is positive. *)
Definition positive (x : xf) : R := match x with Fin v => if Rlt_dec 0 v then 1 else 0 | _ => 0 end%R.
Example C94_nonvacuous : forall lowest n, 0 < n ->
  let move := moves toy_model toy_step toy_noise 1 in
  let h f := mean toy_start (expected move 2 f 0 (map seen toy_data)) in
  let C := multinomial_chances toy_model toy_step lowest (fun _ _ _ => 0%R) (fun f => f) (fun _ _ _ _ => 0) in
  let w := fun _ => ((fun _ _ => / 2)%R, fun k => (k, fun _ : nat => 1%R)) in
  let thr := (9 / 10 * INR n)%R in
  (0 < h (fun _ => 1))%R /\ (0 < h positive < h (fun _ => 1))%R /\ steps 2 0 (map seen toy_data) = 5 /\
  at_most_from (initial toy_start (Fin 0) n 2) (uniforms n 2) (noise toy_noise 1%R n 2) 10 0
    (fun x0 w => square (run_estimate lowest (at_stream C w) (SISR thr) toy_conf 2 0 toy_data n 2 1 x0 - h (fun _ => 1))%R) w (rate 1 1 (9 / 10) 5 / INR n)%R /\
  at_most_from (initial toy_start (Fin 0) n 2) (uniforms n 2) (noise toy_noise 1%R n 2) 10 0
    (fun x0 w => square (run_mean lowest positive (at_stream C w) (SISR thr) toy_conf 2 0 toy_data n 2 1 x0 - h positive / h (fun _ => 1%R)))%R w
    (4 * square 1 * rate 1 1 (9 / 10) 5 / (square (h (fun _ => 1%R)) * INR n))%R.
Proof.
  intros lowest n Hn move h C w thr.
  set (less (f g : xf -> R) := forall v, (-2 < v < 2)%R -> (0 < f (Fin v) < g (Fin v))%R).
  assert (Hg : forall t y f g, less f g -> less (move t y f) (move t y g)).
  { intros t y f g Hf v Hv. unfold move, moves, next. cbn [toy_noise finite mean map fold_right fst snd].
    assert (Es : forall e, toy_step t 1 (Fin v) e = Fin (/ 2 * v + e)) by reflexivity. rewrite !Es.
    pose proof (Hf (/ 2 * v + 1)%R ltac:(lra)) as F1. pose proof (Hf (/ 2 * v + - (1))%R ltac:(lra)) as F2. destruct y as [y|]; [|lra].
    set (p1 := exp _). set (p2 := exp _). assert (0 < p1)%R by apply exp_pos. assert (0 < p2)%R by apply exp_pos. nra. }
  assert (Hb : forall t y, less (move t y positive) (move t y (fun _ => 1%R))).
  { intros t y v Hv. unfold move, moves, next. cbn [toy_noise finite mean map fold_right fst snd].
    assert (Es : forall e, toy_step t 1 (Fin v) e = Fin (/ 2 * v + e)) by reflexivity. rewrite !Es. unfold positive.
    destruct (Rlt_dec 0 (/ 2 * v + 1)); [|lra]. destruct (Rlt_dec 0 (/ 2 * v + - (1))); [lra|]. destruct y as [y|]; [|lra].
    set (p1 := exp _). set (p2 := exp _). assert (0 < p1)%R by apply exp_pos. assert (0 < p2)%R by apply exp_pos. lra. }
  assert (Hh : forall m t f g, less f g -> less (hops move m t f) (hops move m t g)).
  { induction m as [|m IH]; intros t f g Hf; cbn [hops]; [exact Hf|]. apply Hg, IH, Hf. }
  assert (Hl : forall y ys t, less (expected move 2 positive t (y :: ys)) (expected move 2 (fun _ => 1%R) t (y :: ys))).
  { intros y ys. revert y. induction ys as [|y' ys IH]; intros y t; cbn [expected]; [apply Hh, Hb|]. apply Hh, Hg, IH. }
  assert (H0 : (0 < h positive < h (fun _ => 1%R))%R).
  { unfold h, toy_start. cbn [finite mean map fold_right fst snd]. unfold toy_data. cbn [map].
    pose proof (Hl (seen [Fin 1]) [seen [NaN]; seen [Fin 2]] 0 0%R ltac:(lra)). pose proof (Hl (seen [Fin 1]) [seen [NaN]; seen [Fin 2]] 0 1%R ltac:(lra)). lra. }
  assert (HM : bounded_model toy_model toy_step toy_noise 1%R toy_start (Fin 0) 1 1).
  { constructor.
    - split; [apply finite_ok; unfold Rsum; cbn; lra|]. split; [apply finite_pos; intros q [<-|[<-|[]]]; cbn; lra|].
      split; [apply finite_ok; unfold Rsum; cbn; lra|]. split; exists (/ 2)%R; now left.
    - intros x [p [H|[H|[]]]]; injection H as <- _; exact I.
    - intros t i [] e H _; try destruct H. exact I.
    - intros t i [] [] H H'; try destruct H; try destruct H'. cbn [obs_logp toy_model]. rewrite normal_logp_gauss by lra. exact I.
    - intros t i [] H; try destruct H. exact I.
    - intros t [] [] H H'; try destruct H; try destruct H'. cbn [obs_logp toy_model]. rewrite normal_logp_gauss by lra. cbn [real_of].
      assert (P : (1 <= sqrt (2 * PI))%R) by (apply Rle_trans with (sqrt 1); [rewrite sqrt_1; lra|apply sqrt_le_1_alt; pose proof PI2_1; lra]).
      unfold gauss. rewrite exp_ln by (apply Rmult_lt_0_compat; [apply Rinv_0_lt_compat; lra|apply exp_pos]).
      rewrite <- (Rmult_1_r 1) at 4. apply Rmult_le_compat; [left; apply Rinv_0_lt_compat; lra|left; apply exp_pos| |].
      + rewrite <- Rinv_1 at 2. apply Rinv_le_contravar; lra.
      + match goal with |- (exp ?a <= _)%R => assert (Hq : (a <= 0)%R) end.
        { match goal with |- (- (?z * _) / _ <= 0)%R => pose proof (square_nonneg z) as Q end. unfold square in Q. unfold Rdiv.
          replace (/ (2 * (1 * 1)))%R with (/ 2)%R by (f_equal; ring). lra. }
        destruct Hq as [Hq| ->]; [|rewrite exp_0; lra]. apply exp_increasing in Hq. rewrite exp_0 in Hq. lra. }
  assert (Hw : possible (uniforms n 2) (noise toy_noise 1%R n 2) w).
  { intros i. split.
    - apply supp_independent. intros q. apply supp_independent. intros q'. cbn. lra.
    - exists (fun _ _ => 1%R). split; [|reflexivity]. apply supp_independent. intros q. apply supp_independent. intros q'. exists (/ 2)%R. now left. }
  assert (Hys : forall y, In y toy_data -> exists v, y = [v] /\ (is_fin v \/ v = NaN)).
  { intros y [<-|[<-|[<-|[]]]]; eexists; (split; [reflexivity|]); [left|right|left]; try exact I; reflexivity. }
  assert (Hthr : (0 < 9 / 10 <= 1 /\ 9 / 10 * INR n <= thr)%R) by (unfold thr; lra).
  split; [lra|]. split; [exact H0|]. split; [reflexivity|]. split.
  - apply (C94_bootstrap R toy_model toy_step toy_noise 1%R toy_start (Fin 0) lowest n 2 1 1 (fun _ _ _ => 0%R) (fun f => f) (fun _ _ _ _ => 0) (9 / 10) thr toy_conf 2 toy_data 10 0 w);
      try assumption; try lia; try lra; [split; cbn; lia|cbn; repeat split; intros; exact I|exact I|cbn; lia].
  - apply (C94_bootstrap_mean R toy_model toy_step toy_noise 1%R toy_start (Fin 0) lowest n 2 1 1 (fun _ _ _ => 0%R) (fun f => f) (fun _ _ _ _ => 0) (9 / 10) thr toy_conf 2 toy_data 10 0 w positive 1);
      try assumption; try lia; try lra;
      [split; cbn; lia| |cbn; repeat split; intros; exact I|exact I|cbn; repeat split; intros; exact I|exact I|apply Rlt_trans with (h positive); apply H0|cbn; lia].
    intros x _. unfold positive. destruct x as [v| | |]; try (rewrite Rabs_R0; lra). destruct (Rlt_dec 0 v); rewrite ?Rabs_R1, ?Rabs_R0; lra.
Qed.
