(** Properties C102 and C103 (pyfilter/filters/particle/base.py: do_sample_pyro;
    pyfilter/inference/batch/mcmc/proposals/gradient.py: build). *)
From Coq Require Import Reals List Bool Arith Lia Lra String.
From Coquelicot Require Import Coquelicot.
From Verif.Model Require Import Base Xf Tensor Weights Resampling Particle Smoothing Complete Pmmh.
From Verif.Spec Require Import WeightsSpec ResamplingSpec ParticleSpec LoopSpec SmoothingSpec UnbiasedSpec FairSpec ConvergeSpec BackwardSpec CompleteSpec.
From Verif.Proofs Require Import WeightsProofs MomentsProofs ParticleProofs UnbiasedProofs UnbiasedFilter BackwardProofs BackwardPosterior CompleteProofs FisherProofs.
From Verif.Props Require Import ResamplingProps SmoothingProps UnbiasedProps ConvergeProps BackwardProps.
Import ListNotations.
Local Open Scope nat_scope.
Local Notation length := List.length.

(** The states are those of the times 0, 1, 2, ... *)
Definition every_time {X} (states : list (corr X)) : Prop := forall t s, nth_error states t = Some s -> ts_time (c_x s) = t.
Lemma every_time_seq {X} (states : list (corr X)) : every_time states -> map (fun s => ts_time (c_x s)) states = seq 0 (length states).
Proof.
  intros H. apply (nth_ext _ _ 0 0); [now rewrite map_length, seq_length|]. rewrite map_length. intros t Ht. rewrite seq_nth by exact Ht.
  destruct (nth_error states t) as [s|] eqn:E; [|apply nth_error_None in E; lia]. erewrite (nth_map' (fun s => ts_time (c_x s)) states t 0 s) by exact Ht.
  erewrite nth_error_nth by exact E. exact (H t s E).
Qed.

(** * C102 *)
(** With every time recorded the factor is the mean, over trajectories drawn by backward sampling, of the log density of the
    trajectory and the observations. *)
Theorem C102_factor_partial : forall (X Y : Type) li lh (lo : nat -> X -> Y -> R) n j resample trans cat r b every states ys method (d : X),
  0 < n -> 0 < every -> ys <> [] ->
  length states = 2 + every * (length ys - 1) -> every_time states -> (forall s, In s states -> state_ok n b s) ->
  smoother_resampler_ok resample n -> categorical_ok cat n b -> spelling_of "ffbs" method ->
  exists out, do_sample_ffbs resample trans cat r n b states = Ok out /\ length out = length states /\
    do_sample_pyro (fun x => Fin (li x)) (fun t x x' => Fin (lh t x x')) (fun t x y => Fin (lo t x y)) n j resample trans cat r b true every states ys method =
    Ok (Fin (/ INR n * sum_below n (fun i => complete li lh lo every d (map (fun m => m_get m i j) out) ys))).
Proof.
  intros X Y li lh lo n j resample trans cat r b every states ys method d Hn He Hy Hl Ht Hs Hr Hc Hm.
  assert (Hne : states <> []) by (intros ->; discriminate).
  destruct (C30_ffbs_values_are_particles X resample trans cat r n b states Hne Hs Hr Hc) as (out & E & Lo & _).
  exists out. split; [exact E|]. split; [exact Lo|].
  unfold do_sample_pyro. rewrite <- (lower_spelling _ _ Hm). cbn [lower String.eqb]. change (String.eqb (lower "ffbs") "ffbs") with true. cbv iota.
  unfold do_pyro_ffbs. change (smooth resample trans cat r n b states "ffbs") with (do_sample_ffbs resample trans cat r n b states). rewrite E. cbn [bind].
  rewrite (every_time_seq states Ht), <- Lo. apply (pyro_factor_mean li lh lo n j Hn d every out ys He Hy). congruence.
Qed.
Print Assumptions C102_factor_partial.

(** What is refused: a filter that does not record all its states, and any method other than ffbs. *)
Theorem C102_guards : forall (X Y : Type) il hl (ol : nat -> X -> Y -> xf) n j resample trans cat r b every states ys method,
  (spelling_of "ffbs" method -> do_sample_pyro il hl ol n j resample trans cat r b false every states ys method = Raise AssertionError) /\
  (forall recorded, ~ spelling_of "ffbs" method -> do_sample_pyro il hl ol n j resample trans cat r b recorded every states ys method = Raise NotImplementedError).
Proof.
  intros X Y il hl ol n j resample trans cat r b every states ys method. unfold do_sample_pyro. split.
  - intros H. rewrite <- (lower_spelling _ _ H). reflexivity.
  - intros recorded H. destruct (String.eqb_spec (lower method) "ffbs") as [E|_]; [|reflexivity]. destruct H. apply spelling_lower. rewrite E. reflexivity.
Qed.
Print Assumptions C102_guards.

(** A missing observation (whose log density is NaN), which the filters accept, makes the factor NaN, whatever the draws. *)
Lemma xsum_nan l : In NaN l -> xsum l = NaN.
Proof.
  induction l as [|a l IH]; intros []; unfold xsum; cbn [fold_right].
  - subst a. reflexivity.
  - fold (xsum l). rewrite IH by assumption. now destruct a.
Qed.
Lemma broadcast_right {A B} (a : list A) (b : list B) p y : broadcast a b = Ok p -> a <> [] -> In y b -> exists x, In (x, y) p.
Proof.
  unfold broadcast. destruct (Nat.eqb_spec (length a) (length b)) as [E|_].
  - intros H _ Hy. injection H as <-. apply (In_nth _ _ y) in Hy. destruct Hy as (q & Hq & Eq). destruct a as [|a0 a]; [cbn in E; lia|].
    exists (nth q (a0 :: a) a0). rewrite <- Eq at 1. rewrite <- (combine_nth (a0 :: a) b q a0 y E). apply nth_In. rewrite combine_length. lia.
  - destruct a as [|a0 [|a1 a]]; [congruence| |].
    + intros H _ Hy. injection H as <-. exists a0. now apply in_map.
    + destruct b as [|y0 [|y1 b]]; intros H _ Hy; try discriminate. injection H as <-. destruct Hy as [->|[]]. exists a0. now left.
Qed.
Lemma factor_nan : forall (X Y : Type) il hl (ol : nat -> X -> Y -> xf) n j resample trans cat r b every states ys v y,
  0 < n -> 0 < every -> 1 < length states -> In y ys -> (forall t x, ol t x y = NaN) ->
  do_sample_pyro il hl ol n j resample trans cat r b true every states ys "ffbs" = Ok v -> v = NaN.
Proof.
  intros X Y il hl ol n j resample trans cat r b every states ys v y Hn He Hl Hy Hna H.
  change (do_sample_pyro il hl ol n j resample trans cat r b true every states ys "ffbs") with (do_pyro_ffbs il hl ol n j resample trans cat r b true every states ys) in H.
  unfold do_pyro_ffbs in H. destruct (smooth resample trans cat r n b states "ffbs") as [out|e] eqn:Es; [|discriminate]. cbn [bind] in H.
  assert (Lo : length out = length states) by (exact (ffbs_length resample trans cat r n b states out Es)).
  unfold pyro_factor in H. destruct out as [|x0 out]; [discriminate|]. unfold obs_rows in H.
  destruct (broadcast _ ys) as [p|e] eqn:Ep; [|discriminate]. cbn [bind] in H. injection H as <-.
  assert (Ne : combine (stride every (tl (map (fun s => ts_time (c_x s)) states))) (stride every (tl (x0 :: out))) <> []).
  { assert (S0 : forall A (l : list A), l <> [] -> stride every l <> []).
    { intros A [|a l] Hne; [congruence|]. unfold stride. cbn [length seq combine filter fst]. rewrite Nat.mod_0_l by lia. discriminate. }
    assert (N1 : stride every (tl (map (fun s => ts_time (c_x s)) states)) <> []) by (apply S0; destruct states as [|s [|s' l]]; cbn in *; try lia; discriminate).
    assert (N2 : stride every (tl (x0 :: out)) <> []) by (apply S0; cbn in *; destruct out; [cbn in *; lia|discriminate]).
    destruct (stride every (tl (map _ states))), (stride every (tl (x0 :: out))); try congruence; discriminate. }
  destruct (broadcast_right _ _ _ _ Ep Ne Hy) as ([t m] & Hp).
  unfold mean_over. rewrite (xsum_nan (map _ (seq 0 n))); [reflexivity|]. apply in_map_iff. exists 0. split; [|apply in_seq; lia].
  match goal with |- context [sum_rows (map ?f p) 0] => assert (Sn : sum_rows (map f p) 0 = NaN) end.
  { unfold sum_rows. apply xsum_nan. rewrite map_map. apply in_map_iff. exists (t, m, y). split; [apply Hna|exact Hp]. }
  cbv beta. rewrite Sn. now destruct (sum_rows (hidden_rows hl j 0 _ (x0 :: out)) 0), (il (m_get x0 0 j)).
Qed.
Theorem C102_missing_refuted : forall (X Y : Type) il hl (ol : nat -> X -> Y -> xf) n j resample trans cat r b every states ys y,
  0 < n -> 0 < every -> length states = 2 + every * (length ys - 1) -> (forall s, In s states -> state_ok n b s) ->
  smoother_resampler_ok resample n -> categorical_ok cat n b ->
  In y ys -> (forall t x, ol t x y = NaN) ->
  do_sample_pyro il hl ol n j resample trans cat r b true every states ys "ffbs" = Ok NaN.
Proof.
  intros X Y il hl ol n j resample trans cat r b every states ys y Hn He Hl Hs Hr Hc Hy Hna.
  assert (Hne : states <> []) by (intros ->; discriminate).
  destruct (C30_ffbs_values_are_particles X resample trans cat r n b states Hne Hs Hr Hc) as (out & E & Lo & _).
  assert (K : exists v, do_sample_pyro il hl ol n j resample trans cat r b true every states ys "ffbs" = Ok v).
  { change (exists v, (let! smoothed := do_sample_ffbs resample trans cat r n b states in pyro_factor il hl ol n j every (map (fun s => ts_time (c_x s)) states) smoothed ys) = Ok v).
    rewrite E. cbn [bind]. unfold pyro_factor, obs_rows, broadcast.
    destruct out as [|x0 out]; [rewrite Hl in Lo; discriminate|].
    set (T := length ys) in *. assert (HT : 0 < T) by (unfold T; destruct ys; [destruct Hy|cbn; lia]).
    assert (Ls : forall A (l : list A), length l = length states -> length (stride every (tl l)) = T).
    { intros A [|a l] Q; [rewrite Hl in Q; discriminate|]. cbn [tl]. destruct l as [|a' l]; [rewrite Hl in Q; cbn in Q; lia|].
      rewrite (stride_spec every (T - 1) (a' :: l) a He); [rewrite map_length, seq_length; lia|]. rewrite Hl in Q. cbn [length] in *. rewrite Nat.add_comm. cbn. lia. }
    rewrite combine_length, (Ls _ (map _ states)), (Ls _ (x0 :: out)), Nat.min_id by (rewrite ?map_length; congruence). rewrite Nat.eqb_refl. cbn [bind]. eauto. }
  destruct K as [v K]. rewrite K. f_equal. apply (factor_nan X Y il hl ol n j resample trans cat r b every states ys v y); try assumption. rewrite Hl. generalize (every * (List.length ys - 1)). intros; lia.
Qed.
Print Assumptions C102_missing_refuted.

(** Intermediary states not recorded although the model is observed every [every] > 1 steps (one state for each
    observation): an error, or, if there are no more than [every] observations, all of them are weighed against the one
    state of time 1. *)
Lemma stride_short {A} k (a : A) l : length (a :: l) <= k -> stride k (a :: l) = [a].
Proof.
  intros H. unfold stride. cbn [length seq combine filter fst]. cbn [length] in H. rewrite Nat.mod_0_l by lia. cbn [Nat.eqb map snd]. f_equal.
  enough (G : forall s (l : list A), 0 < s -> s + length l <= k -> filter (fun p => fst p mod k =? 0) (combine (seq s (length l)) l) = []) by (rewrite G; [reflexivity|lia|lia]).
  clear. intros s l. revert s. induction l as [|x l IH]; intros s Hs H; [reflexivity|]. cbn [length seq combine filter fst] in *. rewrite Nat.mod_small by lia.
  destruct (Nat.eqb_spec s 0); [lia|]. apply IH; lia.
Qed.
Lemma stride_long {A} k (l : list A) : 2 <= k -> k < length l -> 2 <= length (stride k l) < length l.
Proof.
  intros Hk Hl. unfold stride. rewrite map_length.
  assert (E : filter (fun p => fst p mod k =? 0) (combine (seq 0 (length l)) l) = filter (fun p => fst p mod k =? 0) (combine (seq 0 (length l)) l)) by reflexivity.
  assert (G : forall s (l : list A), length (filter (fun p => fst p mod k =? 0) (combine (seq s (length l)) l)) <= length l).
  { intros s m. revert s. induction m as [|x m IH]; intros s; [reflexivity|]. cbn [length seq combine filter fst]. specialize (IH (S s)). destruct (s mod k =? 0); cbn [length]; lia. }
  destruct l as [|x0 [|x1 l]]; [cbn in Hl; lia|cbn in Hl; lia|]. cbn [length seq combine filter fst] in *. rewrite Nat.mod_0_l by lia. rewrite (Nat.mod_small 1) by lia. cbn [Nat.eqb length].
  split; [|pose proof (G 2 l); lia].
  enough (P : forall m s, s <= k -> k < s + length m -> 0 < s -> 1 <= length (filter (fun p : nat * A => fst p mod k =? 0) (combine (seq s (length m)) m))) by (specialize (P l 2 ltac:(lia) ltac:(lia) ltac:(lia)); lia).
  clear - Hk. induction m as [|x m IH]; intros s H1 H2 H3; cbn [length] in *; [lia|]. cbn [seq combine filter fst].
  destruct (Nat.eq_dec s k) as [->|N]; [rewrite Nat.mod_same by lia; cbn; lia|]. rewrite Nat.mod_small by lia. destruct (Nat.eqb_spec s 0); [lia|]. apply IH; lia.
Qed.
Theorem C102_needs_intermediary : forall (X Y : Type) il hl (ol : nat -> X -> Y -> xf) n j resample trans cat r b every states ys,
  2 <= every -> 2 <= length ys -> length states = S (length ys) -> (forall s, In s states -> state_ok n b s) ->
  smoother_resampler_ok resample n -> categorical_ok cat n b ->
  exists out x0 x1 s1, do_sample_ffbs resample trans cat r n b states = Ok out /\ nth_error out 0 = Some x0 /\ nth_error out 1 = Some x1 /\
    nth_error states 1 = Some s1 /\
    do_sample_pyro il hl ol n j resample trans cat r b true every states ys "ffbs" =
    (if length ys <=? every then
       Ok (mean_over n (fun i => xadd (xadd (sum_rows (hidden_rows hl j 0 (map (fun s => ts_time (c_x s)) states) out) i)
             (xsum (map (fun y => ol (ts_time (c_x s1)) (m_get x1 i j) y) ys))) (il (m_get x0 i j))))
     else Raise RuntimeError).
Proof.
  intros X Y il hl ol n j resample trans cat r b every states ys He HT Hl Hs Hr Hc.
  assert (Hne : states <> []) by (intros ->; discriminate).
  destruct (C30_ffbs_values_are_particles X resample trans cat r n b states Hne Hs Hr Hc) as (out & E & Lo & _).
  assert (exists x0 x1 xr, out = x0 :: x1 :: xr) as (x0 & x1 & xr & Eo) by (destruct out as [|x0 [|x1 xr]]; cbn in Lo; try lia; eauto).
  assert (exists s0 s1 sr, states = s0 :: s1 :: sr) as (s0 & s1 & sr & Est) by (destruct states as [|s0 [|s1 sr]]; cbn in Hl; try lia; eauto).
  exists out, x0, x1, s1. split; [exact E|]. split; [now rewrite Eo|]. split; [now rewrite Eo|]. split; [now rewrite Est|].
  change (do_sample_pyro il hl ol n j resample trans cat r b true every states ys "ffbs")
    with (let! smoothed := do_sample_ffbs resample trans cat r n b states in pyro_factor il hl ol n j every (map (fun s => ts_time (c_x s)) states) smoothed ys).
  rewrite E. cbn [bind]. unfold pyro_factor. rewrite Eo at 1. unfold obs_rows.
  assert (Lt : length (tl out) = length ys) by (rewrite length_tl; lia).
  assert (Lm : length (tl (map (fun s => ts_time (c_x s)) states)) = length ys) by (rewrite length_tl, map_length; lia).
  destruct (Nat.leb_spec (length ys) every) as [Hle|Hgt].
  - rewrite Eo at 1. rewrite Est at 1. cbn [map tl] in *. rewrite Eo in Lt. rewrite Est in Lm. cbn [map tl] in Lt, Lm.
    rewrite (stride_short every x1 xr) by lia. rewrite (stride_short every _ (map (fun s => ts_time (c_x s)) sr)) by lia. cbn [combine]. unfold broadcast. cbn [length].
    destruct (Nat.eqb_spec 1 (length ys)); [lia|]. cbn [bind]. do 2 f_equal. apply FunctionalExtensionality.functional_extensionality. intros i. do 2 f_equal.
    unfold sum_rows. rewrite !map_map. reflexivity.
  - pose proof (stride_long every (tl out) He ltac:(lia)) as A1. pose proof (stride_long every (tl (map (fun s => ts_time (c_x s)) states)) He ltac:(lia)) as A2.
    set (c := combine _ _).
    assert (Lc : 2 <= length c < length ys) by (unfold c; rewrite combine_length; lia).
    unfold broadcast. destruct (Nat.eqb_spec (length c) (length ys)); [lia|].
    destruct c as [|c0 [|c1 c]]; cbn [length] in Lc; try lia. destruct ys as [|y0 [|y1 ys]]; cbn [length] in *; try lia. reflexivity.
Qed.
Print Assumptions C102_needs_intermediary.

(** Four recorded states of two particles, a model observed every second step (at times 1 and 3). *)
Definition ramp (t : nat) : corr R :=
  Corr (TS t (Mat 2 1 (fun i _ => INR (t + i)))) (Mat 2 1 (fun _ _ => Fin 0)) (fun _ => Fin 0) (arange 2 1).
Definition keep : nat -> mat xf -> res (mat nat) := fun _ m => Ok (Mat (m_rows m) (m_cols m) (fun i _ => i)).
Lemma ramp_ok t : state_ok 2 1 (ramp t).
Proof. constructor; [now split|now split|intros i j _ _; exact I|split; [now split|intros i j H _; exact H]]. Qed.
Lemma keep_ok : smoother_resampler_ok keep 2.
Proof. intros r m Hm. eexists. split; [reflexivity|]. split; [now split|]. intros i j H _. cbn in *. lia. Qed.
Lemma first_ok : categorical_ok first_categorical 2 1.
Proof. intros r logits _. eexists. split; [reflexivity|]. split; [now split|]. intros i j _ _. cbn. lia. Qed.
Lemma ramp_times : every_time [ramp 0; ramp 1; ramp 2; ramp 3].
Proof. intros [|[|[|[|t]]]] s H; cbn in H; try (injection H as <-; reflexivity). destruct t; discriminate. Qed.
Example C102_nonvacuous :
  do_sample_pyro (fun x : R => Fin (- x)) (fun _ x x' => Fin (x' - x)) (fun _ x y => Fin (x * y)) 2 0 keep (fun _ _ _ _ => Fin 0) first_categorical 0 1
    true 2 [ramp 0; ramp 1; ramp 2; ramp 3] [1; 2]%R "FFBS" = Ok (Fin (23 / 2)).
Proof.
  destruct (C102_factor_partial R R (fun x => - x)%R (fun _ x x' => x' - x)%R (fun _ x y => x * y)%R 2 0 keep (fun _ _ _ _ => Fin 0) first_categorical 0 1 2
    [ramp 0; ramp 1; ramp 2; ramp 3] [1; 2]%R "FFBS" 0%R ltac:(lia) ltac:(lia) ltac:(discriminate) eq_refl ramp_times) as (out & E & _ & V).
  - intros s [<-|[<-|[<-|[<-|[]]]]]; apply ramp_ok.
  - exact keep_ok.
  - exact first_ok.
  - cbn. repeat split; right; left; cbn; lia.
  - rewrite V. cbn in E. injection E as <-. do 2 f_equal. unfold complete, sum_below, Rsum. cbn. field.
Qed.

(** * C103 *)
(** With every time recorded and an observation at each, the function the proposal differentiates is the mean complete log
    density of the trajectories plus the log prior. *)
Theorem C103_target_partial : forall (X Y : Type) li lh (lo : nat -> X -> Y -> R) n j resample trans cat r b prior states ys (d : X),
  0 < n -> ys <> [] -> length states = S (length ys) -> every_time states -> (forall s, In s states -> state_ok n b s) ->
  smoother_resampler_ok resample n -> categorical_ok cat n b ->
  exists out, do_sample_ffbs resample trans cat r n b states = Ok out /\ length out = length states /\
    gradient_target (fun x => Fin (li x)) (fun t x x' => Fin (lh t x x')) (fun t x y => Fin (lo t x y)) n j resample trans cat r b (Fin prior) states ys =
    Ok (Fin (/ INR n * sum_below n (fun i => complete li lh lo 1 d (map (fun m => m_get m i j) out) ys) + prior)).
Proof.
  intros X Y li lh lo n j resample trans cat r b prior states ys d Hn Hy Hl Ht Hs Hr Hc.
  assert (Hne : states <> []) by (intros ->; discriminate).
  destruct (C30_ffbs_values_are_particles X resample trans cat r n b states Hne Hs Hr Hc) as (out & E & Lo & _).
  exists out. split; [exact E|]. split; [exact Lo|]. now apply target_mean.
Qed.
Print Assumptions C103_target_partial.

(** A model observed every [every] > 1 steps, recorded at every time: the states after the first are more than the
    observations, and building the kernel raises. *)
Theorem C103_every_refuted : forall (X Y : Type) il hl (ol : nat -> X -> Y -> xf) n j resample trans cat r b prior every states ys,
  2 <= every -> 2 <= length ys -> length states = 2 + every * (length ys - 1) -> (forall s, In s states -> state_ok n b s) ->
  smoother_resampler_ok resample n -> categorical_ok cat n b ->
  gradient_target il hl ol n j resample trans cat r b prior states ys = Raise RuntimeError.
Proof.
  intros X Y il hl ol n j resample trans cat r b prior every states ys He HT Hl Hs Hr Hc.
  assert (Hne : states <> []) by (intros ->; discriminate).
  destruct (C30_ffbs_values_are_particles X resample trans cat r n b states Hne Hs Hr Hc) as (out & E & Lo & _).
  unfold gradient_target. change (smooth resample trans cat r n b states "ffbs") with (do_sample_ffbs resample trans cat r n b states). rewrite E. cbn [bind].
  assert (Big : length ys < 1 + every * (length ys - 1)) by (pose proof (Nat.mul_le_mono_r 2 every (length ys - 1) He); lia).
  destruct states as [|s states]; [congruence|]. unfold model_likelihood. destruct out as [|x0 out]; [discriminate|]. unfold obs_rows. cbn [tl map length] in *.
  set (c := combine _ _). assert (Lc : length ys < length c).
  { unfold c. rewrite combine_length, map_length. injection Lo as Lo. rewrite Lo, Nat.min_id. revert Hl Big. generalize (every * (length ys - 1)). intros; lia. }
  unfold broadcast. destruct (Nat.eqb_spec (length c) (length ys)); [lia|].
  destruct c as [|c0 [|c1 c]]; cbn [length] in Lc; try lia. destruct ys as [|y0 [|y1 ys]]; cbn [length] in *; try lia. reflexivity.
Qed.
Print Assumptions C103_every_refuted.

(** The location of the kernel of the parameter [j] (unconstrained value [u], constrained value [th]), a step [eps] along the
    derivative of the target; 0 if building the kernel raises. *)
Definition kernel_location (eps u th : R) (target : R -> res xf) : R :=
  match target th with Ok _ => fst (gradient_build eps 0 u (Derive (fun v => real_result (target v)) th)) | Raise _ => 0%R end.

(** Averaged over the draws of the smoother the kernel is centred at [u + eps S'(th)], where S is the exact log likelihood
    of the observations plus the log prior, if the filter is exact (a process with finitely many values). *)
Theorem C103_fisher_partial : forall (X Y U D : Type) (eq_dec : forall x y : X, {x = y} + {x <> y}) lowest pick cat (LU : law U) (LD : law D) n b j
    (xs : list X) start dens (g : R -> nat -> X -> Y -> R) (th : nat -> R) (prior : R -> R) states ys eps u r w,
  law_ok LU -> law_ok LD -> 0 < n -> j < b ->
  fair_pick pick LU lowest n b j -> fair_categorical cat LD n b ->
  NoDup xs -> length xs = n -> ys <> [] ->
  (forall i, positive_at start dens g (th i)) -> locally (th j) (positive_at start dens g) -> differentiable_at start dens g (th j) -> ex_derive prior (th j) ->
  length states = S (length ys) -> (forall s, In s states -> weighted_state n b s) ->
  (forall i, i < b -> exact_states lowest i 1 eq_dec xs (start (th i)) (dens (th i)) (seen g ys (th i)) states) ->
  let target w v := gradient_target (fun x => Fin (ln (start v x))) (fun t x x' => Fin (ln (dens v t x x'))) (fun t x y => Fin (ln (g v t x y))) n j
    (fun r => pick (fst (w r))) (fun t i x x' => log_of (dens (th i) t x x')) (fun r => cat (snd (w r))) r b (Fin (prior v)) states ys in
  (forall w, ex_derive (fun v => real_result (target w v)) (th j)) /\
  exists slope,
    is_derive (fun v => ln (over_paths xs (start v) (dens v) (seen g ys v) (length ys) (fun _ => 1)) + prior v)%R (th j) slope /\
    averages_over LU LD (S (length ys)) r (fun w => kernel_location eps u (th j) (target w)) w (u + eps * slope)%R.
Proof.
  intros X Y U D eq_dec lowest pick cat LU LD n b j xs start dens g th prior states ys eps u r w HU HD Hn Hj Hp Hc Nd Lx Hy Hpos Hloc (D1 & D2 & D3) Dp Hl Hs He target.
  assert (Hxs : xs <> []) by (intros ->; cbn in Lx; lia).
  assert (Ed : exists d, In d xs) by (destruct xs as [|d l]; [congruence|exists d; now left]). destruct Ed as [d _].
  set (G := slope start dens g ys d (th j)).
  assert (Ht : every_time states).
  { intros t s E. destruct (He j Hj t s E) as (T1 & _). rewrite T1. destruct t; cbn [recorded_time]; lia. }
  set (sm w := smooth (fun r => pick (fst (w r))) (fun t i x x' => log_of (dens (th i) t x x')) (fun r => cat (snd (w r))) r n b states "ffbs").
  assert (Tg : forall w v, target w v = match sm w with
     | Ok out => Ok (Fin (/ INR n * sum_below n (fun i => cll start dens g ys d v (map (fun m => m_get m i j) out)) + prior v))
     | Raise e => Raise e end).
  { intros w0 v. unfold target. destruct (sm w0) as [out|e] eqn:E.
    - apply (target_mean (fun x => ln (start v x)) (fun t x x' => ln (dens v t x x')) (fun t x y => ln (g v t x y)) n j Hn d); try assumption.
      exact (ffbs_length _ _ _ _ _ _ _ _ E).
    - unfold gradient_target. unfold sm in E. rewrite E. reflexivity. }
  assert (Dt : forall w0 out, sm w0 = Ok out -> is_derive (fun v => real_result (target w0 v)) (th j)
      (/ INR n * sum_below n (fun i => G (map (fun m => m_get m i j) out)) + Derive prior (th j))%R).
  { intros w0 out E. apply (is_derive_ext (fun v => / INR n * sum_below n (fun i => cll start dens g ys d v (map (fun m => m_get m i j) out)) + prior v)%R).
    - intros v. rewrite Tg, E. reflexivity.
    - apply (is_derive_plus (fun v => / INR n * sum_below n (fun i => cll start dens g ys d v (map (fun m => m_get m i j) out)))%R); [|now apply Derive_correct].
      apply (is_derive_scal (fun v => sum_below n (fun i => cll start dens g ys d v (map (fun m => m_get m i j) out)))).
      apply (is_derive_sum (seq 0 n) (fun i v => cll start dens g ys d v (map (fun m => m_get m i j) out)) (fun i => G (map (fun m => m_get m i j) out))).
      intros i _. apply Derive_correct. now apply cll_derivable. }
  split.
  { intros w0. destruct (sm w0) as [out|e] eqn:E; [eexists; now apply (Dt w0 out)|]. exists 0%R. apply (is_derive_ext (fun _ => 0%R)); [intros v; now rewrite Tg, E|].
    apply (is_derive_const 0%R (th j)). }
  set (F := fun p => (u + eps * (G p + Derive prior (th j)))%R).
  set (post := posterior xs (start (th j)) (dens (th j)) (seen g ys (th j)) (length ys)).
  assert (Z : over_paths xs (start (th j)) (dens (th j)) (seen g ys (th j)) (length ys) (fun _ => 1%R) <> 0%R).
  { apply Rgt_not_eq. exact (total_pos_here xs start dens g ys Hxs d (th j) Hloc). }
  exists (post G + Derive prior (th j))%R. split.
  { apply (is_derive_plus (fun v => ln (over_paths xs (start v) (dens v) (seen g ys v) (length ys) (fun _ => 1%R)))); [|now apply Derive_correct].
    now apply fisher. }
  replace (u + eps * (post G + Derive prior (th j)))%R with (post F).
  - assert (Ex : (fun w => kernel_location eps u (th j) (target w)) = (fun w => trajectory_mean n j F (sm w))).
    { apply FunctionalExtensionality.functional_extensionality. intros w0. unfold kernel_location. rewrite Tg. unfold trajectory_mean. destruct (sm w0) as [out|e] eqn:E; [|reflexivity].
      pose proof (is_derive_unique _ _ _ (Dt w0 out E)) as Du.
      change (fst (gradient_build eps 0 u (Derive (fun v => real_result (target w0 v)) (th j))) = / INR n * sum_below n (fun i => F (map (fun m => m_get m i j) out)))%R.
      cbn [gradient_build fst]. etransitivity; [apply f_equal; apply f_equal; apply f_equal; exact Du|]. unfold F.
      rewrite (sb_ext n (fun i => u + eps * (G (map (fun m => m_get m i j) out) + Derive prior (th j)))%R (fun i => (u + eps * Derive prior (th j)) * 1 + eps * G (map (fun m => m_get m i j) out))%R) by (intros; ring).
      rewrite sb_add, (sb_scal n _ (fun _ => 1%R)), (sb_scal n eps), sb_one. field. apply not_0_INR. lia. }
    refine (eq_rect _ (fun f => averages_over LU LD (S (length ys)) r f w (post F)) _ _ (eq_sym Ex)). apply (C101_ffbs_posterior X U D eq_dec lowest pick cat LU LD n b j (fun _ => xs) (fun i => start (th i)) (fun i => dens (th i)) (fun i => seen g ys (th i))); try assumption.
    + intros i _. now split.
    + intros i x. left. apply (Hpos i).
    + intros i t x x'. left. apply (Hpos i).
    + intros i t x. left. apply (seen_pos start dens g ys (th i) (Hpos i)).
  - unfold post, posterior, F. rewrite (paths_affine xs _ _ _ _ (u + eps * Derive prior (th j))%R eps G) by (intros; ring). field. exact Z.
Qed.
Print Assumptions C103_fisher_partial.

(** The kernel lives on the unconstrained parameters, but the gradient is taken with respect to the constrained one: for a
    positive parameter, th = exp u, the location is not the gradient step of S in u. *)
Theorem C103_space_refuted : forall S slope u eps, is_derive S (exp u) slope -> slope <> 0%R -> u <> 0%R -> eps <> 0%R ->
  fst (gradient_build eps 0 u slope) <> (u + eps * Derive (fun v => S (exp v)) u)%R.
Proof.
  intros S slope u eps H Hs Hu He. cbn [gradient_build fst].
  assert (D : Derive (fun v => S (exp v)) u = (exp u * slope)%R).
  { apply is_derive_unique. evar_last; [apply (is_derive_comp S exp); [exact H|apply is_derive_exp]|]. unfold scal; cbn; unfold mult; cbn. reflexivity. }
  rewrite D. intros E. assert (Q : (eps * slope * (exp u - 1) = 0)%R) by lra.
  apply Rmult_integral in Q. destruct Q as [Q|Q]; [apply Rmult_integral in Q; tauto|]. apply Hu. apply exp_inv. rewrite exp_0. lra.
Qed.
Print Assumptions C103_space_refuted.

(** The process of C101 with an observation at time 1 whose log density is the parameter or 0: the log likelihood is
    ln ((1 + exp th) / 2), with a log prior - th its slope at th = ln 3 is 3/4 - 1. *)
Definition tilt (th : R) (_ : nat) (x : bool) (_ : unit) : R := if x then exp th else 1%R.
Lemma tilt_positive th : positive_at (fun _ => half) (fun _ => flip) tilt th.
Proof.
  split; [intros x; unfold half; lra|]. split; [intros t x x'; unfold flip; destruct (Bool.eqb x x'); lra|].
  intros t x y. unfold tilt. destruct x; [apply exp_pos|lra].
Qed.
Lemma tilt_exact lowest : exact_states lowest 0 1 Bool.bool_dec [true; false] half flip (seen tilt [tt] (ln 3)) [favour_state 0 0; favour_state 1 (ln 3)].
Proof.
  assert (Nd : NoDup [true; false]) by (constructor; [intros [E|[]]; discriminate|constructor; [intros []|constructor]]).
  intros [|[|q]] s H; cbn in H; [| |destruct q; discriminate]; injection H as <-; (split; [reflexivity|]); (split; [reflexivity|]);
    cbn [map]; rewrite !(filtered_alpha [true; false] half flip (seen tilt [tt] (ln 3)) true Bool.bool_dec) by (try exact Nd; cbn; tauto);
    unfold over, Rsum, imp, col, Rsum; cbn; unfold half, tilt, flip; cbn; rewrite ?exp_0, ?exp_ln by lra; (f_equal; [field|f_equal; field]).
Qed.
Example C103_nonvacuous : forall lowest eps u r w,
  averages_over (offsets 1) (uniforms 2 1) 2 r
    (fun w => kernel_location eps u (ln 3) (fun v =>
       gradient_target (fun x => Fin (ln (half x))) (fun t x x' => Fin (ln (flip t x x'))) (fun t x y => Fin (ln (tilt v t x y))) 2 0
         (fun r => systematic_mat lowest (fst (w r)) false) (fun t _ x x' => log_of (flip t x x')) (fun r => categorical_mat (snd (w r))) r 1 (Fin (- v))
         [favour_state 0 0; favour_state 1 (ln 3)] [tt])) w
    (u + eps * (3 / 4 - 1))%R.
Proof.
  intros lowest eps u r w.
  destruct (C103_fisher_partial bool unit (nat -> R) (nat -> nat -> R) Bool.bool_dec lowest (fun u => systematic_mat lowest u false) categorical_mat (offsets 1) (uniforms 2 1) 2 1 0
    [true; false] (fun _ => half) (fun _ => flip) tilt (fun _ => ln 3) (fun v => - v)%R [favour_state 0 0; favour_state 1 (ln 3)] [tt] eps u r w) as (_ & s & Hs & A).
  - apply independent_ok; [exact uniform_ok|intros; cbn; lra].
  - apply OU2.
  - lia.
  - lia.
  - apply C101_systematic_fair; lia.
  - apply C101_categorical_fair.
  - constructor; [intros [E|[]]; discriminate|constructor; [intros []|constructor]].
  - reflexivity.
  - discriminate.
  - intros _. apply tilt_positive.
  - apply filter_forall. apply tilt_positive.
  - split; [intros x; apply (ex_derive_const (half x))|]. split; [intros t x x'; apply (ex_derive_const (flip t x x'))|].
    intros t x y. unfold tilt. destruct x; [eexists; apply is_derive_exp|apply (ex_derive_const 1%R)].
  - auto_derive. exact I.
  - reflexivity.
  - intros s [<-|[<-|[]]]; apply favour_ok.
  - intros i Hi. replace i with 0 by lia. apply tilt_exact.
  - replace (3 / 4 - 1)%R with s; [exact A|].
    assert (D : is_derive (fun v => ln (/ 2 * (exp v + 1)) + - v)%R (ln 3) (3 / 4 - 1)%R).
    { auto_derive; [pose proof (exp_pos (ln 3)); lra|]. rewrite exp_ln by lra. field. }
    apply is_derive_unique in Hs. apply is_derive_unique in D. rewrite <- Hs, <- D. apply Derive_ext. intros v. f_equal. f_equal.
    unfold over_paths. cbn [onward map]. unfold Rsum, half, flip, tilt. cbn. field.
Qed.
