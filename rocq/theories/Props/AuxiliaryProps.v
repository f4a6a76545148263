(** Property C109 (pyfilter/filters/particle/apf.py, sisr.py, base.py; pyfilter/filters/base.py): the likelihood estimate and the
    filter means of the auxiliary particle filter, and of SISR whatever its threshold, converge as the number of particles grows. *)
From Coq Require Import String Reals List Bool Arith Lia Lra.
From Coquelicot Require Import Coquelicot.
From Verif.Model Require Import Base Xf Tensor Weights Resampling Particle FilterLoop Proposal.
From Verif.Spec Require Import WeightsSpec ResamplingSpec ParticleSpec LoopSpec ProposalSpec UnbiasedSpec FairSpec ConvergeSpec AuxiliarySpec.
From Verif.Proofs Require Import WeightsProofs MomentsProofs ResamplingProofs ParticleProofs StepProofs ProposalProofs UnbiasedProofs UnbiasedFilter ConvergeProofs ConvergeFilter ConvergeAny.
From Verif.Props Require Import ResamplingProps ResampleMeanProps UnbiasedProps ResampleErrorProps ConvergeProps.
Import ListNotations.
Local Open Scope nat_scope.
Notation length := List.length.

(** The constant: [K] moves, importance weights at most [G] (for the auxiliary particle filter: look-ahead weight times the
    largest ratio of an importance weight to it), resampling with constant [kappa]. *)
Definition any_rate (kappa G : R) (K : nat) : R := (2 * (INR K * (8 + 10 * kappa) * (4 * square G) ^ K) + 2 * square (G ^ K))%R.

Section ConvergeAny.
  Context {X U D : Type} (lowest : R) (LU : law (nat -> U)) (LD : law (nat -> D)) (LX : law (tstate X)) (C : @chances X U D).
  Context (good : X -> Prop) (usable : list xf -> Prop) (fr : bool -> U -> list xf -> list nat) (fp : D -> nat -> list X -> list X)
    (fx : D -> list xf -> nat -> list X -> list xf -> list xf -> list X) (fw : D -> list xf -> nat -> list X -> list xf -> list xf -> list xf)
    (fg : nat -> list xf -> nat -> list X -> list xf).
  Context (n b j : nat) (kappa G : R) (move : nat -> option (list xf) -> (X -> R) -> X -> R) (movable : nat -> option (list xf) -> (X -> R) -> Prop).
  Context (P H : R) (ahead : list xf -> nat -> X -> R) (kd : kind).
  Context (cf : fconf) (fuel : nat) (ys : list (list xf)) (k r : nat) (w : filter_stream U D).

  (** What is asked of the filter, its draws and the data. *)
  Record converging_any : Prop := {
    any_laws : law_ok LU /\ law_ok LD /\ law_ok LX /\ law_pos LD;
    any_separate : separate LU LD C good usable fr fp fx fw fg;
    any_size : 0 < n /\ j < b;
    any_constants : (0 <= kappa /\ 1 <= G)%R;
    any_kind : (exists thr, kd = SISR thr /\ steady_resampling LU kappa n b fr) \/
      (kd = APF /\ steady_choice LU kappa n b fr /\ steady_ahead LD good usable P H n j move movable fx fw fg ahead /\ (0 <= H /\ P * H <= G)%R);
    any_fair : fair_moves LD good n j move movable fp fx fw;
    any_moves : steady_moves LD good usable G n j move movable fp fx fw;
    any_every : observe_every cf <> 0 /\ observe_every cf <= fuel;
    any_data : forall y, In y ys -> seen y <> None -> usable y;
    any_draws : draws (observe_every cf) 0 (map seen ys) <= k;
    any_initial : forall x0, supp LX x0 -> ts_time x0 = 0 /\ shaped (ts_val x0) n b /\ entries good (ts_val x0);
    any_stream : possible LU LD w
  }.
  Notation ys' := (map seen ys).
  Notation every := (observe_every cf).
  Notation K := (steps every 0 ys').
  Notation est := (fun x0 w => run_estimate lowest (at_stream C w) kd cf fuel r ys n b j x0).
  Notation avg phi := (fun x0 w => run_mean lowest phi (at_stream C w) kd cf fuel r ys n b j x0).

  Lemma any_weighted_error phi B m : converging_any -> (0 <= B)%R -> (forall x, good x -> (Rabs (phi x) <= B)%R) -> has_expected move movable every phi 0 ys' ->
    starts LX n j (expected move every phi 0 ys') (G ^ K * B) m ->
    at_most_from LX LU LD k r (fun x0 w => square (est x0 w * avg phi x0 w - m))%R w (any_rate kappa G K * square B / INR n)%R.
  Proof.
    intros [(HU & HD & HX & PD) Hsep (Hn & Hj) (Hka & HG) Hkd Hfair Hmove (Hev & Hfuel) Hys Hk Hx0 Hw] HB Hphi He Hm.
    set (h := expected move every phi 0 ys') in *. set (N := fun x0 : tstate X => sumto n (fun i => / INR n * h (m_get (ts_val x0) i j))%R).
    pose proof (lt_0_INR n Hn) as Hn0. pose (S0 := (ac kappa G B K * / INR n)%R).
    assert (HS : (S0 <= INR K * (8 + 10 * kappa) * (4 * square G) ^ K * square B / INR n)%R).
    { apply Rmult_le_compat_r; [left; now apply Rinv_0_lt_compat|]. now apply ac_rate. }
    exists (fun x0 => 2 * square (N x0 - m) + 2 * S0)%R. split.
    - intros x0 Hs. destruct (Hx0 x0 Hs) as (T & Sh & Gd).
      destruct (initialize_ok lowest n b x0 Hn Sh) as (s & Es & Hok & Ex & _ & _ & Ew).
      assert (Hso : sok good n b s) by (split; [exact Hok|rewrite Ex; exact Gd]).
      assert (T' : ts_time (c_x s) = 0) by (rewrite Ex; exact T).
      assert (Ei : imp lowest (col (c_w s) j) = repeat (/ INR n)%R n).
      { rewrite (Ew j). replace (repeat (Fin 0) n) with (map Fin (repeat 0%R n)) by now rewrite map_repeat'. rewrite imp_fin, map_repeat', exp_0. unfold normal.
        rewrite map_repeat'. f_equal. rewrite Rsum_repeat. field. apply not_0_INR. lia. }
      assert (Ev : value lowest n j s h = N x0).
      { unfold value, spread, N. rewrite Ei, Ex. apply sumto_ext. intros i Hi. f_equal. apply (repeat_spec n (/ INR n)%R). apply nth_In. now rewrite repeat_length. }
      assert (Esq : sq lowest n j s = (/ INR n)%R).
      { unfold sq, bulk. rewrite Ei. rewrite (sumto_ext n _ (fun _ => square (/ INR n))).
        - rewrite sumto_const. unfold square. field. lra.
        - intros i Hi. f_equal. apply (repeat_spec n (/ INR n)%R). apply nth_In. now rewrite repeat_length. }
      pose proof (any_errors lowest LU LD HU HD PD C fr fp fx fw fg good usable Hsep n b j Hn Hj kappa G Hka HG move movable Hfair Hmove (m_get (ts_val x0) 0 0)
        P H ahead kd Hkd cf Hev phi B HB Hphi ys ltac:(apply Forall_forall; exact Hys) fuel k r s w (fun w => square (est x0 w * avg phi x0 w - m))%R 2%R (2 * square (N x0 - m))%R
        Hfuel Hso ltac:(rewrite T'; exact He) ltac:(rewrite T'; exact Hk) ltac:(lra)) as Q0.
      rewrite T' in Q0. fold h in Q0. rewrite Ev, Esq in Q0. fold S0 in Q0. rewrite Rplus_comm. apply Q0. intros w' _.
      unfold run_estimate, run_mean, west. rewrite Es.
      set (e := (_ * _)%R). pose proof (square_plus (e - N x0) (N x0 - m)) as Q. replace (e - N x0 + (N x0 - m))%R with (e - m)%R in Q by ring. exact Q.
    - refine (at_most_weaken LX _ _ _ _ (fun _ _ => Rle_refl _) (at_most_affine LX HX 2 (2 * S0) _ _ ltac:(lra) Hm) _).
      unfold any_rate.
      replace ((2 * (INR K * (8 + 10 * kappa) * (4 * square G) ^ K) + 2 * square (G ^ K)) * square B / INR n)%R
        with (2 * (square (G ^ K * B) / INR n) + 2 * (INR K * (8 + 10 * kappa) * (4 * square G) ^ K * square B / INR n))%R by (unfold square; field; lra).
      lra.
  Qed.

  (** Runs end in proper states. *)
  Lemma any_mean_bound phi B x0 w' : converging_any -> (0 <= B)%R -> (forall x, good x -> (Rabs (phi x) <= B)%R) -> supp LX x0 -> possible LU LD w' -> (Rabs (avg phi x0 w') <= B)%R.
  Proof.
    intros [(HU & HD & HX & PD) Hsep (Hn & Hj) (Hka & HG) Hkd Hfair Hmove (Hev & Hfuel) Hys Hk Hx0 Hw] HB Hphi Hs Hw'.
    destruct (Hx0 x0 Hs) as (T & Sh & Gd). destruct (initialize_ok lowest n b x0 Hn Sh) as (s & Es & Hok & Ex & _). unfold run_mean. rewrite Es. unfold last_mean.
    destruct (batch_filter _ _ _ _ _ _ _ s) as [[[[c r'] l]|]|] eqn:Eb; try (rewrite Rabs_R0; exact HB).
    apply (mean_bound lowest good n b j Hn Hj cf Hev phi B Hphi).
    apply (any_run_sok lowest LU LD HU C fr fp fx fw fg good usable Hsep n b j Hn Hj kappa G Hka move movable (m_get (ts_val x0) 0 0) P H ahead kd Hkd cf Hev w' Hw' ys fuel r s c r' l); [now apply Forall_forall|split; [exact Hok|now rewrite Ex]|exact Eb].
  Qed.
  Lemma any_mean_one x0 w' : converging_any -> supp LX x0 -> possible LU LD w' -> (est x0 w' * avg (fun _ => 1%R) x0 w')%R = est x0 w'.
  Proof.
    intros [(HU & HD & HX & PD) Hsep (Hn & Hj) (Hka & HG) Hkd Hfair Hmove (Hev & Hfuel) Hys Hk Hx0 Hw] Hs Hw'.
    destruct (Hx0 x0 Hs) as (T & Sh & Gd). destruct (initialize_ok lowest n b x0 Hn Sh) as (s & Es & Hok & Ex & _). unfold run_mean, run_estimate. rewrite Es. unfold last_mean, estimate.
    destruct (batch_filter _ _ _ _ _ _ _ s) as [[[[c r'] l]|]|] eqn:Eb; [|ring|ring].
    assert (Hc : sok good n b c).
    { apply (any_run_sok lowest LU LD HU C fr fp fx fw fg good usable Hsep n b j Hn Hj kappa G Hka move movable (m_get (ts_val x0) 0 0) P H ahead kd Hkd cf Hev w' Hw' ys fuel r s c r' l); [now apply Forall_forall|split; [exact Hok|now rewrite Ex]|exact Eb]. }
    destruct (sok_weights lowest good n b j Hn Hj c Hc) as [HW LW].
    replace (filter_mean lowest n j (fun _ => 1%R) c) with 1%R; [ring|]. unfold filter_mean. change (sum_below n) with (sumto n).
    rewrite (sumto_ext n _ (fun i => nth i (imp lowest (col (c_w c) j)) 0%R)) by (intros; ring). rewrite <- LW, <- Rsum_nth. symmetry. apply HW.
  Qed.

  (** The likelihood estimate. *)
  Theorem C109_likelihood m : converging_any -> has_expected move movable every (fun _ => 1%R) 0 ys' ->
    starts LX n j (expected move every (fun _ => 1%R) 0 ys') (G ^ K) m ->
    at_most_from LX LU LD k r (fun x0 w => square (est x0 w - m)) w (any_rate kappa G K / INR n)%R.
  Proof.
    intros Hc He Hm. pose proof Hc as [(HU & HD & HX & PD) _ _ _ _ _ _ _ _ _ _ Hw].
    destruct (any_weighted_error (fun _ => 1%R) 1 m Hc ltac:(lra) ltac:(intros; right; exact Rabs_R1) He ltac:(rewrite Rmult_1_r; exact Hm)) as (F & HF & HX').
    exists F. split.
    - intros x0 Hs. apply (over_most_possible LU LD k r _ (fun w => square (est x0 w * avg (fun _ => 1%R) x0 w - m)) w (F x0)); [exact Hw| |lra|now apply HF].
      intros w' Hw' _. right. do 2 f_equal. symmetry. now apply any_mean_one.
    - apply (at_most_weaken LX F F _ _ ltac:(intros; lra) HX'). right. unfold square. unfold Rdiv. ring.
  Qed.
  (** ... is close to the likelihood with a probability that tends to one. *)
  Theorem C109_likelihood_probability m eps : converging_any -> has_expected move movable every (fun _ => 1%R) 0 ys' ->
    starts LX n j (expected move every (fun _ => 1%R) 0 ys') (G ^ K) m -> (0 < eps)%R ->
    at_most_from LX LU LD k r (fun x0 w => if Rle_dec eps (Rabs (est x0 w - m)) then 1 else 0)%R w (any_rate kappa G K / (square eps * INR n))%R.
  Proof.
    intros Hc He Hm Heps. pose proof Hc as [(HU & HD & HX & PD) _ (Hn & _) _ _ _ _ _ _ _ _ Hw]. pose proof (lt_0_INR n Hn) as Hn0.
    destruct (C109_likelihood m Hc He Hm) as (F & HF & HX'). assert (Hsq : (0 < square eps)%R) by (unfold square; nra).
    exists (fun x0 => / square eps * F x0 + 0)%R. split.
    - intros x0 Hs. pose proof (over_most_lin LU LD HU HD k r _ (fun _ => 0%R) w (F x0) 0 (/ square eps) 1 ltac:(left; now apply Rinv_0_lt_compat) ltac:(lra) (HF x0 Hs)
        ltac:(apply over_most_const; [exact HU|exact HD|intros; lra])) as Q1.
      apply (over_most_weaken LU LD k r _ (fun w => / square eps * square (est x0 w - m) + 1 * 0)%R w (/ square eps * F x0 + 1 * 0)%R); [|lra|exact Q1].
      intros w' _. cbn beta. set (e := run_estimate _ _ _ _ _ _ _ _ _ _ _). pose proof (square_nonneg (e - m)) as Pq.
      assert (0 < / square eps)%R by now apply Rinv_0_lt_compat.
      destruct (Rle_dec eps (Rabs (e - m))) as [Q|Q]; [|nra].
      assert (square eps <= square (e - m))%R.
      { unfold square. rewrite <- (Rabs_right ((e - m) * (e - m))) by (apply Rle_ge; exact Pq). rewrite Rabs_mult. nra. }
      replace 1%R with (/ square eps * square eps)%R at 1 by (field; lra). nra.
    - refine (at_most_weaken LX _ _ _ _ (fun _ _ => Rle_refl _) (at_most_affine LX HX (/ square eps) 0 _ _ ltac:(left; now apply Rinv_0_lt_compat) HX') _).
      right. field. lra.
  Qed.
  (** The mean of a bounded quantity under the last state: it converges to its mean given the observations, [m / l]. *)
  Theorem C109_mean phi B m l : converging_any -> (0 <= B)%R -> (forall x, good x -> (Rabs (phi x) <= B)%R) ->
    has_expected move movable every phi 0 ys' -> starts LX n j (expected move every phi 0 ys') (G ^ K * B) m ->
    has_expected move movable every (fun _ => 1%R) 0 ys' -> starts LX n j (expected move every (fun _ => 1%R) 0 ys') (G ^ K) l -> (0 < l)%R ->
    at_most_from LX LU LD k r (fun x0 w => square (avg phi x0 w - m / l)) w (4 * square B * any_rate kappa G K / (square l * INR n))%R.
  Proof.
    intros Hc HB Hphi He Hm He1 Hl Hpos. pose proof Hc as [(HU & HD & HX & PD) _ (Hn & _) _ _ _ _ _ _ _ _ Hw]. pose proof (lt_0_INR n Hn) as Hn0.
    destruct (C109_likelihood l Hc He1 Hl) as (F1 & HF1 & HX1). destruct (any_weighted_error phi B m Hc HB Hphi He Hm) as (F2 & HF2 & HX2).
    assert (Hq : (0 < 2 / square l)%R) by (apply Rmult_lt_0_compat; [lra|apply Rinv_0_lt_compat; unfold square; nra]).
    pose proof (square_nonneg B) as HB2. assert (Hq2 : (0 <= 2 / square l * square B)%R) by (apply Rmult_le_pos; lra).
    exists (fun x0 => 2 / square l * F2 x0 + 2 / square l * square B * F1 x0)%R. split.
    - intros x0 Hs.
      pose proof (over_most_lin LU LD HU HD k r _ _ w _ _ (2 / square l) (2 / square l * square B) ltac:(lra) Hq2 (HF2 x0 Hs) (HF1 x0 Hs)) as Q1.
      refine (over_most_possible LU LD k r _ _ w _ _ Hw _ (Rle_refl _) Q1). intros w' Hw' _.
      pose proof (square_abs _ _ (any_mean_bound phi B x0 w' Hc HB Hphi Hs Hw')) as Hb. cbn beta in *.
      set (a := run_mean _ _ _ _ _ _ _ _ _ _ _ _) in *. set (e := run_estimate _ _ _ _ _ _ _ _ _ _ _) in *.
      assert (El : (a - m / l)%R = (/ l * ((e * a - m) + - a * (e - l)))%R) by (field; lra). rewrite El.
      replace (square (/ l * (e * a - m + - a * (e - l)))) with (/ square l * square (e * a - m + - a * (e - l)))%R by (unfold square; field; lra).
      pose proof (square_plus (e * a - m) (- a * (e - l))) as Q.
      replace (square (- a * (e - l))) with (square a * square (e - l))%R in Q by (unfold square; ring).
      pose proof (Rmult_le_compat_r _ _ _ (square_nonneg (e - l)) Hb) as Q2.
      assert (0 < / square l)%R by (apply Rinv_0_lt_compat; unfold square; nra).
      replace (2 / square l * square (e * a - m) + 2 / square l * square B * square (e - l))%R
        with (/ square l * (2 * square (e * a - m) + 2 * (square B * square (e - l))))%R by (unfold Rdiv; ring).
      apply Rmult_le_compat_l; lra.
    - refine (at_most_weaken LX _ _ _ _ (fun _ _ => Rle_refl _) (at_most_lin LX HX _ _ _ _ _ _ (Rlt_le _ _ Hq) Hq2 HX2 HX1) _).
      right. field. split; [lra|]. unfold square. nra.
  Qed.
End ConvergeAny.
Print Assumptions C109_likelihood.
Print Assumptions C109_likelihood_probability.
Print Assumptions C109_mean.

(** * The bootstrap proposal with multinomial resampling *)
Lemma steady_least (E : Type) (M : ssm) step (K : law E) e0 (K0 : law xf) x00 G G' j :
  (G <= G')%R -> bounded_model M step K e0 K0 x00 G j -> bounded_model M step K e0 K0 x00 G' j.
Proof. intros HG [A1 A2 A3 A4 A5 A6]. constructor; try assumption. intros t x y Hx Hy. apply Rle_trans with G; [now apply A6|exact HG]. Qed.

Section BootstrapAny.
  Context {E : Type} (M : ssm) (step : nat -> nat -> xf -> E -> xf) (K : law E) (e0 : E) (K0 : law xf) (x00 : xf).
  Variables (lowest : R) (n b j : nat) (G H : R).
  Hypothesis HM : bounded_model M step K e0 K0 x00 G j.
  Hypothesis Hn : 0 < n.
  Hypothesis Hj : j < b.
  Hypothesis HG : (1 <= G)%R.
  Hypothesis HH : (1 <= H)%R.
  (** Looking ahead from the mean of the next step: the density of an observation at a possible next state is at most [H] times the density
      at the mean. *)
  Definition foreseen : Prop := forall t x e y, is_fin x -> supp K e -> is_fin y ->
    (exp (real_of (obs_logp M (S t) j (step t j x e) y)) <= H * exp (real_of (obs_logp M (S t) j (fst (mean_scale M t j x)) y)))%R.
  Definition boot_ahead (y : list xf) (t : nat) (x : xf) : R := real_of (obs_logp M (S t) j (fst (mean_scale M t j x)) (hd NaN y)).

  Lemma boot_choice : steady_choice (uniforms n b) 1 n b (boot_fr lowest).
  Proof.
    intros k l F B Hk Hl Ll HB.
    assert (Hne : l <> []) by (intros ->; cbn in Ll; lia).
    assert (Er : l = map Fin (map real_of l)).
    { rewrite map_map. rewrite <- (map_id l) at 1. apply map_ext_in. intros v Hv. apply (proj1 (Forall_forall _ _) Hl) in Hv. destruct v; simpl in Hv; tauto. }
    assert (El : map Fin (imp lowest l) = map (fun r => Fin (exp r / Rsum (map exp (map real_of l)))) (map real_of l)).
    { rewrite Er at 1. rewrite imp_fin. unfold normal. rewrite !map_map. reflexivity. }
    assert (Ef : forall u, boot_fr lowest false u l = boot_fr lowest true u (map Fin (imp lowest l))).
    { intros u. unfold boot_fr, multinomial, wrapper. cbn [normalize_arg]. rewrite Er at 1.
      rewrite normalize_fin by (destruct l; [congruence|discriminate]). cbn [bind]. now rewrite El. }
    assert (Li : length (imp lowest l) = n) by (unfold imp; now rewrite map_length).
    assert (HW : prob_vec (imp lowest l)).
    { apply imp_prob; [exact Hne|]. intros v Hv. apply (proj1 (Forall_forall _ _) Hl) in Hv. destruct v; simpl in *; tauto. }
    refine (at_most_weaken _ _ _ _ _ _ (boot_resampling lowest n b Hn k (imp lowest l) F B Hk HW Li HB) (Rle_refl _)).
    intros u _. right. rewrite Ef. do 2 f_equal. apply (sumto_ext n). intros i Hi. rewrite imp_shares; [reflexivity|exact Hl|lia].
  Qed.
  Lemma boot_looks : foreseen -> steady_ahead (noise K e0 n b) is_fin number G H n j (moves M step K j) (movable M step K j) (boot_fx step) (boot_fw M step) (boot_fg M) boot_ahead.
  Proof.
    intros Hf. constructor.
    - intros y t xs Hy Hxs. unfold boot_fg. apply map_ext_in. intros x Hx. apply (proj1 (Forall_forall _ _) Hxs) in Hx. unfold boot_ahead.
      pose proof (bm_density _ _ _ _ _ _ _ _ HM (S t) j _ _ (bm_ahead _ _ _ _ _ _ _ _ HM t j x Hx) Hy) as Q. destruct (obs_logp M (S t) j _ (hd NaN y)); simpl in Q; tauto.
    - intros y t x Hy Hx. apply (bm_bound _ _ _ _ _ _ _ _ HM); [|exact Hy]. now apply (bm_ahead _ _ _ _ _ _ _ _ HM).
    - intros d y t xs ws nws i z Hd Hy Lx Gx Hi. destruct (noise_spec K e0 n b d Hd) as [D1 D2]. unfold boot_fw.
      rewrite (nth_map' _ (boot_fp step (d j) t xs) i NaN z) by (rewrite (length_fp step); lia). rewrite D1, (nth_fp step n b j Hn Hj) by (try apply D1; assumption).
      apply Hf; [|apply D2|exact Hy]. apply (proj1 (Forall_forall _ _) Gx), nth_In. lia.
    - intros y t xs ws nws f B a z Hy Lx Gx Hm HB.
      set (c i := (H * exp (boot_ahead y t (nth i xs z)))%R). assert (Hc : forall i, (0 < c i)%R) by (intros i; apply Rmult_lt_0_compat; [lra|apply exp_pos]).
      assert (Gi : forall i, i < n -> is_fin (nth i xs z)) by (intros i Hi; apply (proj1 (Forall_forall _ _) Gx), nth_In; lia).
      pose proof (independent_square K (proj1 (bm_laws _ _ _ _ _ _ _ _ HM)) (fun _ => e0) (base_e M step K e0 K0 x00 j G HM) n n
        (fun i e => / c i * next M step j t (Some y) f (nth i xs z) e)%R (fun i => / c i * moves M step K j t (Some y) f (nth i xs z))%R B (fun i => a i * c i)%R (le_n n)) as Q.
      refine (at_most_weaken _ _ _ _ _ _ (noise_most M step K e0 K0 x00 n b j G HM Hj _ _ (Q _ _)) (Rle_refl _)).
      + intros d Hd. destruct (noise_spec K e0 n b d Hd) as [D1 D2]. right. f_equal. f_equal.
        * apply (sumto_ext n). intros i Hi. unfold next, boot_fw, boot_fx. rewrite D1.
          rewrite (nth_map' _ (boot_fp step (d j) t xs) i NaN z) by (rewrite (length_fp step); lia). rewrite (nth_fp step n b j Hn Hj) by (try apply D1; assumption). pose proof (Hc i). field. lra.
        * apply (sumto_ext n). intros i Hi. pose proof (Hc i). field. lra.
      + intros i Hi. apply averages_scal; [apply HM|]. split; [now apply Hm, Gi|reflexivity].
      + intros i x Hi Hx. unfold next. pose proof (Hc i) as Hci.
        assert (Gs : is_fin (step t j (nth i xs z) x)) by (apply (bm_step _ _ _ _ _ _ _ _ HM); [now apply Gi|exact Hx]).
        rewrite !Rabs_mult. rewrite (Rabs_right (/ c i)) by (left; now apply Rinv_0_lt_compat). rewrite (Rabs_right (exp _)) by (left; apply exp_pos).
        pose proof (Hf t (nth i xs z) x (hd NaN y) (Gi i Hi) Hx Hy) as Q1. fold (boot_ahead y t (nth i xs z)) in Q1. fold (c i) in Q1.
        pose proof (HB _ Gs) as Q2. set (p := exp _) in *. assert (0 < p)%R by apply exp_pos. pose proof (Rabs_pos (f (step t j (nth i xs z) x))) as Q3.
        apply (Rmult_le_reg_l (c i)); [exact Hci|]. rewrite <- Rmult_assoc, Rinv_r, Rmult_1_l by lra. apply Rmult_le_compat; lra.
  Qed.

  Variables (normals : nat -> nat -> nat -> R) (autodiff : (xf -> xf) -> (xf -> xf)) (pick : nat -> nat -> nat -> list xf -> nat).
  Variables (kd : kind) (cf : fconf) (fuel : nat) (ys : list (list xf)) (k r : nat) (w : filter_stream (nat -> R) (nat * (nat -> E))).
  Hypothesis Hkd : (exists thr, kd = SISR thr) \/ (kd = APF /\ foreseen).
  Hypothesis Hev : observe_every cf <> 0 /\ observe_every cf <= fuel.
  Hypothesis Hys : forall y, In y ys -> exists v, y = [v] /\ (is_fin v \/ v = NaN).
  Hypothesis Hk : draws (observe_every cf) 0 (map seen ys) <= k.
  Hypothesis Hw : possible (uniforms n b) (noise K e0 n b) w.
  Lemma HM' : bounded_model M step K e0 K0 x00 (G * H) j.
  Proof. apply (steady_least _ _ _ _ _ _ _ G); [nra|exact HM]. Qed.
  Lemma boot_any : converging_any (uniforms n b) (noise K e0 n b) (initial K0 x00 n b) (multinomial_chances M step lowest normals autodiff pick) is_fin number
    (boot_fr lowest) (boot_fp step) (boot_fx step) (boot_fw M step) (boot_fg M) n b j 1 (G * H) (moves M step K j) (movable M step K j) G H boot_ahead kd cf fuel ys k w.
  Proof.
    assert (HGH : (1 <= G * H)%R) by nra.
    pose proof (boot_converging M step K e0 K0 x00 lowest n b j (G * H) HM' Hn Hj HGH normals autodiff pick 1 (INR n) cf fuel ys k w ltac:(lra) Hev Hys Hk Hw) as [A1 A2 A3 A4 A5 A6 A7 A8 A9 A10 A11 A12].
    constructor; try assumption; [lra|]. destruct Hkd as [(thr & ->)|(-> & Hf)]; [left; exists thr; now split|]. right. split; [reflexivity|].
    split; [exact boot_choice|]. split; [now apply boot_looks|lra].
  Qed.
End BootstrapAny.

(** Bootstrap SISR with any threshold, or the auxiliary particle filter, with multinomial resampling: the likelihood estimate ... *)
Theorem C109_bootstrap : forall (E : Type) (M : ssm) step (K : law E) e0 (K0 : law xf) x00 lowest n b j G H normals autodiff pick kd cf fuel ys k r w,
  bounded_model M step K e0 K0 x00 G j -> 0 < n -> j < b -> (1 <= G /\ 1 <= H)%R ->
  (exists thr, kd = SISR thr) \/ (kd = APF /\ foreseen M step K j H) ->
  observe_every cf <> 0 /\ observe_every cf <= fuel ->
  (forall y, In y ys -> exists v, y = [v] /\ (is_fin v \/ v = NaN)) ->
  let ys' := map seen ys in
  let h := expected (moves M step K j) (observe_every cf) (fun _ => 1%R) 0 ys' in
  has_expected (moves M step K j) (movable M step K j) (observe_every cf) (fun _ => 1%R) 0 ys' -> dom K0 h ->
  draws (observe_every cf) 0 ys' <= k -> possible (uniforms n b) (noise K e0 n b) w ->
  let C := multinomial_chances M step lowest normals autodiff pick in
  at_most_from (initial K0 x00 n b) (uniforms n b) (noise K e0 n b) k r
    (fun x0 w => square (run_estimate lowest (at_stream C w) kd cf fuel r ys n b j x0 - mean K0 h)) w
    (any_rate 1 (G * H) (steps (observe_every cf) 0 ys') / INR n)%R.
Proof.
  intros E M step K e0 K0 x00 lowest n b j G H normals autodiff pick kd cf fuel ys k r w HM Hn Hj (HG & HH) Hkd Hev Hys ys' h He Hd Hk Hw C.
  refine (C109_likelihood lowest _ _ _ C is_fin number (boot_fr lowest) (boot_fp step) (boot_fx step) (boot_fw M step) (boot_fg M) n b j 1 (G * H) _ (movable M step K j) G H (boot_ahead M j) kd cf fuel ys k r w (mean K0 h) _ He _).
  - apply (boot_any M step K e0 K0 x00); assumption.
  - pose proof (boot_starts M step K e0 K0 x00 lowest n b j (G * H) (HM' M step K e0 K0 x00 j G H HM HG HH) Hn Hj ltac:(nra) normals autodiff pick cf fuel ys w Hev Hys (fun _ => 1%R) 1 ltac:(lra) ltac:(intros; right; exact Rabs_R1)) as Q.
    rewrite Rmult_1_r in Q. now apply Q.
Qed.
Print Assumptions C109_bootstrap.
(** ... and the mean of a bounded quantity under the weights of the last state. *)
Theorem C109_bootstrap_mean : forall (E : Type) (M : ssm) step (K : law E) e0 (K0 : law xf) x00 lowest n b j G H normals autodiff pick kd cf fuel ys k r w (phi : xf -> R) B,
  bounded_model M step K e0 K0 x00 G j -> 0 < n -> j < b -> (1 <= G /\ 1 <= H)%R ->
  (exists thr, kd = SISR thr) \/ (kd = APF /\ foreseen M step K j H) ->
  observe_every cf <> 0 /\ observe_every cf <= fuel ->
  (forall y, In y ys -> exists v, y = [v] /\ (is_fin v \/ v = NaN)) ->
  (0 <= B)%R -> (forall x, is_fin x -> (Rabs (phi x) <= B)%R) ->
  let ys' := map seen ys in
  let h f := expected (moves M step K j) (observe_every cf) f 0 ys' in
  has_expected (moves M step K j) (movable M step K j) (observe_every cf) phi 0 ys' -> dom K0 (h phi) ->
  has_expected (moves M step K j) (movable M step K j) (observe_every cf) (fun _ => 1%R) 0 ys' -> dom K0 (h (fun _ => 1%R)) ->
  (0 < mean K0 (h (fun _ => 1%R)))%R ->
  draws (observe_every cf) 0 ys' <= k -> possible (uniforms n b) (noise K e0 n b) w ->
  let C := multinomial_chances M step lowest normals autodiff pick in
  let l := mean K0 (h (fun _ => 1%R)) in
  at_most_from (initial K0 x00 n b) (uniforms n b) (noise K e0 n b) k r
    (fun x0 w => square (run_mean lowest phi (at_stream C w) kd cf fuel r ys n b j x0 - mean K0 (h phi) / l)) w
    (4 * square B * any_rate 1 (G * H) (steps (observe_every cf) 0 ys') / (square l * INR n))%R.
Proof.
  intros E M step K e0 K0 x00 lowest n b j G H normals autodiff pick kd cf fuel ys k r w phi B HM Hn Hj (HG & HH) Hkd Hev Hys HB Hphi ys' h He Hd He1 Hd1 Hpos Hk Hw C l.
  refine (C109_mean lowest _ _ _ C is_fin number (boot_fr lowest) (boot_fp step) (boot_fx step) (boot_fw M step) (boot_fg M) n b j 1 (G * H) _ (movable M step K j) G H (boot_ahead M j) kd cf fuel ys k r w phi B _ l _ HB Hphi He _ He1 _ Hpos).
  - apply (boot_any M step K e0 K0 x00); assumption.
  - exact (boot_starts M step K e0 K0 x00 lowest n b j (G * H) (HM' M step K e0 K0 x00 j G H HM HG HH) Hn Hj ltac:(nra) normals autodiff pick cf fuel ys w Hev Hys phi B HB Hphi He Hd).
  - pose proof (boot_starts M step K e0 K0 x00 lowest n b j (G * H) (HM' M step K e0 K0 x00 j G H HM HG HH) Hn Hj ltac:(nra) normals autodiff pick cf fuel ys w Hev Hys (fun _ => 1%R) 1 ltac:(lra) ltac:(intros; right; exact Rabs_R1)) as Q.
    rewrite Rmult_1_r in Q. now apply Q.
Qed.
Print Assumptions C109_bootstrap_mean.

(** The process of C86 of which only the sign is observed, right three times out of four: SISR with any threshold (also one that
    is never reached) and the auxiliary particle filter. *)
Definition sign_logp (x y : xf) : xf :=
  match x, y with Fin v, Fin z => Fin (ln (if Rlt_dec 0 (v * z) then 3 / 4 else 1 / 4)) | _, _ => NaN end%R.
Definition sign_model : ssm :=
  SSM (fun _ _ x => (xmul (Fin (/ 2)) x, Fin 1)) (fun _ _ _ _ => Fin 0) (fun _ x => ts_val x) (fun _ _ x y => sign_logp x y)
    (fun _ => Fin 1) (fun _ => Fin 0) (fun _ => Fin 1).
Example C109_nonvacuous : forall lowest n kd, 0 < n -> (exists thr, kd = SISR thr) \/ kd = APF ->
  let move := moves sign_model toy_step toy_noise 1 in
  let h f := mean toy_start (expected move 2 f 0 (map seen toy_data)) in
  let C := multinomial_chances sign_model toy_step lowest (fun _ _ _ => 0%R) (fun f => f) (fun _ _ _ _ => 0) in
  let w := fun _ => ((fun _ _ => / 2)%R, fun k => (k, fun _ : nat => 1%R)) in
  (0 < h positive < h (fun _ => 1))%R /\ steps 2 0 (map seen toy_data) = 5 /\
  at_most_from (initial toy_start (Fin 0) n 2) (uniforms n 2) (noise toy_noise 1%R n 2) 10 0
    (fun x0 w => square (run_estimate lowest (at_stream C w) kd toy_conf 2 0 toy_data n 2 1 x0 - h (fun _ => 1))%R) w (any_rate 1 (1 * 3) 5 / INR n)%R /\
  at_most_from (initial toy_start (Fin 0) n 2) (uniforms n 2) (noise toy_noise 1%R n 2) 10 0
    (fun x0 w => square (run_mean lowest positive (at_stream C w) kd toy_conf 2 0 toy_data n 2 1 x0 - h positive / h (fun _ => 1%R)))%R w
    (4 * square 1 * any_rate 1 (1 * 3) 5 / (square (h (fun _ => 1%R)) * INR n))%R.
Proof.
  intros lowest n kd Hn Hkd move h C w.
  assert (Hd : forall v z, exists q, sign_logp (Fin v) (Fin z) = Fin q /\ (1 / 4 <= exp q <= 3 / 4)%R).
  { intros v z. eexists. split; [reflexivity|]. rewrite exp_ln by (destruct (Rlt_dec 0 (v * z)); lra). destruct (Rlt_dec 0 (v * z)); lra. }
  set (less (f g : xf -> R) := forall v, (-2 < v < 2)%R -> (0 < f (Fin v) < g (Fin v))%R).
  assert (Hg : forall t y f g, less f g -> less (move t y f) (move t y g)).
  { intros t y f g Hf v Hv. unfold move, moves, next. cbn [toy_noise finite mean map fold_right fst snd].
    assert (Es : forall e, toy_step t 1 (Fin v) e = Fin (/ 2 * v + e)) by reflexivity. rewrite !Es.
    pose proof (Hf (/ 2 * v + 1)%R ltac:(lra)) as F1. pose proof (Hf (/ 2 * v + - (1))%R ltac:(lra)) as F2. destruct y as [y|]; [|lra].
    set (p1 := exp _). set (p2 := exp _). assert (0 < p1)%R by apply exp_pos. assert (0 < p2)%R by apply exp_pos. nra. }
  assert (Hb : forall t y, less (move t y positive) (move t y (fun _ => 1%R))).
  { intros t y v Hv. unfold move, moves, next. cbn [toy_noise finite mean map fold_right fst snd].
    assert (Es : forall e, toy_step t 1 (Fin v) e = Fin (/ 2 * v + e)) by reflexivity. rewrite !Es. unfold positive.
    destruct (Rlt_dec 0 (/ 2 * v + 1)); [|lra]. destruct (Rlt_dec 0 (/ 2 * v + - (1))); [lra|]. destruct y as [y|]; [|lra].
    set (p1 := exp _). set (p2 := exp _). assert (0 < p1)%R by apply exp_pos. assert (0 < p2)%R by apply exp_pos. lra. }
  assert (Hh : forall m t f g, less f g -> less (hops move m t f) (hops move m t g)).
  { induction m as [|m IH]; intros t f g Hf; cbn [hops]; [exact Hf|]. apply Hg, IH, Hf. }
  assert (Hl : forall y ys t, less (expected move 2 positive t (y :: ys)) (expected move 2 (fun _ => 1%R) t (y :: ys))).
  { intros y ys. revert y. induction ys as [|y' ys IH]; intros y t; cbn [expected]; [apply Hh, Hb|]. apply Hh, Hg, IH. }
  assert (H0 : (0 < h positive < h (fun _ => 1%R))%R).
  { unfold h, toy_start. cbn [finite mean map fold_right fst snd]. unfold toy_data. cbn [map].
    pose proof (Hl (seen [Fin 1]) [seen [NaN]; seen [Fin 2]] 0 0%R ltac:(lra)). pose proof (Hl (seen [Fin 1]) [seen [NaN]; seen [Fin 2]] 0 1%R ltac:(lra)). lra. }
  assert (HM : bounded_model sign_model toy_step toy_noise 1%R toy_start (Fin 0) 1 1).
  { constructor.
    - split; [apply finite_ok; unfold Rsum; cbn; lra|]. split; [apply finite_pos; intros q [<-|[<-|[]]]; cbn; lra|].
      split; [apply finite_ok; unfold Rsum; cbn; lra|]. split; exists (/ 2)%R; now left.
    - intros x [p [H|[H|[]]]]; injection H as <- _; exact I.
    - intros t i [] e H _; try destruct H. exact I.
    - intros t i [v| | |] [z| | |] H H'; try destruct H; try destruct H'. exact I.
    - intros t i [] H; try destruct H. exact I.
    - intros t [v| | |] [z| | |] H H'; try destruct H; try destruct H'. cbn [obs_logp sign_model]. destruct (Hd v z) as (q & -> & Hq). cbn [real_of]. lra. }
  assert (Hf : foreseen sign_model toy_step toy_noise 1 3).
  { intros t [v| | |] e [z| | |] H _ H'; try destruct H; try destruct H'. unfold toy_step. cbn [obs_logp sign_model mean_scale fst xmul xadd].
    destruct (Hd (/ 2 * v + e)%R z) as (q & -> & Hq). destruct (Hd (/ 2 * v)%R z) as (q' & -> & Hq'). cbn [real_of]. lra. }
  assert (Hw : possible (uniforms n 2) (noise toy_noise 1%R n 2) w).
  { intros i. split.
    - apply supp_independent. intros q. apply supp_independent. intros q'. cbn. lra.
    - exists (fun _ _ => 1%R). split; [|reflexivity]. apply supp_independent. intros q. apply supp_independent. intros q'. exists (/ 2)%R. now left. }
  assert (Hys : forall y, In y toy_data -> exists v, y = [v] /\ (is_fin v \/ v = NaN)).
  { intros y [<-|[<-|[<-|[]]]]; eexists; (split; [reflexivity|]); [left|right|left]; try exact I; reflexivity. }
  assert (Hkd' : (exists thr, kd = SISR thr) \/ (kd = APF /\ foreseen sign_model toy_step toy_noise 1 3)) by tauto.
  split; [exact H0|]. split; [reflexivity|]. split.
  - apply (C109_bootstrap R sign_model toy_step toy_noise 1%R toy_start (Fin 0) lowest n 2 1 1 3 (fun _ _ _ => 0%R) (fun f => f) (fun _ _ _ _ => 0) kd toy_conf 2 toy_data 10 0 w);
      try assumption; try lia; try lra; [split; cbn; lia|cbn; repeat split; intros; exact I|exact I|cbn; lia].
  - apply (C109_bootstrap_mean R sign_model toy_step toy_noise 1%R toy_start (Fin 0) lowest n 2 1 1 3 (fun _ _ _ => 0%R) (fun f => f) (fun _ _ _ _ => 0) kd toy_conf 2 toy_data 10 0 w positive 1);
      try assumption; try lia; try lra;
      [split; cbn; lia| |cbn; repeat split; intros; exact I|exact I|cbn; repeat split; intros; exact I|exact I|apply Rlt_trans with (h positive); apply H0|cbn; lia].
    intros x _. unfold positive. destruct x as [v| | |]; try (rewrite Rabs_R0; lra). destruct (Rlt_dec 0 v); rewrite ?Rabs_R1, ?Rabs_R0; lra.
Qed.
Print Assumptions C109_nonvacuous.
