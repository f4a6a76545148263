(** Property C101 (pyfilter/filters/particle/base.py: _do_sample_ffbs, smooth): the law of the trajectories. *)
From Coq Require Import Reals List Bool Arith Lia Lra String.
From Verif.Model Require Import Base Xf Tensor Weights Resampling Particle Smoothing.
From Verif.Spec Require Import WeightsSpec ResamplingSpec ParticleSpec SmoothingSpec UnbiasedSpec FairSpec ConvergeSpec BackwardSpec.
From Verif.Proofs Require Import WeightsProofs MomentsProofs ParticleProofs UnbiasedProofs UnbiasedFilter BackwardProofs BackwardPosterior.
From Verif.Props Require Import ResamplingProps ResampleMeanProps ResampleErrorProps UnbiasedProps ConvergeProps.
Import ListNotations.
Local Open Scope nat_scope.

(** A recorded state with [n] particles in each of [b] filters, whose log weights are numbers. *)
Definition weighted_state {X} (n b : nat) (s : corr X) : Prop := state_ok n b s /\ entries is_fin (c_w s).

(** Averaged over the draws, the mean of any function of the trajectories of filter [j] is its mean under the chain that
    starts at the last state with the filter weights and moves back with the chances W_k f(x | x_k) / sum. *)
Theorem C101_ffbs_law : forall (X U D : Type) lowest pick cat (LU : law U) (LD : law D) n b j (dens : nat -> nat -> X -> X -> R) states F r w,
  law_ok LU -> law_ok LD -> 0 < n -> j < b ->
  fair_pick pick LU lowest n b j -> fair_categorical cat LD n b ->
  (forall i t x x', (0 <= dens i t x x')%R) ->
  states <> [] -> (forall s, In s states -> weighted_state n b s) -> (forall i, i < b -> linked n i (dens i) states) ->
  averages_over LU LD (List.length states) r
    (fun w => trajectory_mean n j F
       (smooth (fun r => pick (fst (w r))) (fun t i x x' => log_of (dens i t x x')) (fun r => cat (snd (w r))) r n b states "ffbs")) w
    (backward_average lowest n j (dens j) states F).
Proof.
  intros X U D lowest pick cat LU LD n b j dens states F r w HU HD Hn Hj Hp Hc Hd Hne Hs Hl.
  apply (sample_ffbs_law lowest pick cat LU LD HU HD n b j Hj Hp Hc dens Hd); try assumption. apply Forall_forall. exact Hs.
Qed.
Print Assumptions C101_ffbs_law.

(** The exact filter of a process with finitely many values, recorded at every time: the trajectories follow the
    posterior of the path given all the observations.  (Recording every time is what filters/base.py:41-42 asks for:
    record_intermediary_states "must be True whenever you are performing smoothing" if observe_every_step > 1.) *)
Theorem C101_ffbs_posterior : forall (X U D : Type) (eq_dec : forall x y : X, {x = y} + {x <> y}) lowest pick cat (LU : law U) (LD : law D) n b j
    (xs : nat -> list X) start dens obs states m F r w,
  law_ok LU -> law_ok LD -> 0 < n -> j < b ->
  fair_pick pick LU lowest n b j -> fair_categorical cat LD n b ->
  (forall i, i < b -> NoDup (xs i) /\ List.length (xs i) = n) ->
  (forall i x, (0 <= start i x)%R) -> (forall i t x x', (0 <= dens i t x x')%R) -> (forall i t x, (0 <= obs i t x)%R) ->
  List.length states = S m -> (forall s, In s states -> weighted_state n b s) ->
  (forall i, i < b -> exact_states lowest i 1 eq_dec (xs i) (start i) (dens i) (obs i) states) ->
  averages_over LU LD (S m) r
    (fun w => trajectory_mean n j F
       (smooth (fun r => pick (fst (w r))) (fun t i x x' => log_of (dens i t x x')) (fun r => cat (snd (w r))) r n b states "ffbs")) w
    (posterior (xs j) (start j) (dens j) (obs j) m F).
Proof.
  intros X U D eq_dec lowest pick cat LU LD n b j xs start dens obs states m F r w HU HD Hn Hj Hp Hc Hxs H1 H2 H3 Hm Hs He.
  assert (Hf : List.Forall (fine n b) states) by (apply Forall_forall; exact Hs).
  destruct (Hxs j Hj) as [Hj1 Hj2].
  rewrite <- (exact_average lowest n b eq_dec (xs j) (start j) (dens j) (obs j) j Hj Hj1 Hj2 Hn (H1 j) (H2 j) (H3 j) states Hf (He j Hj) F m Hm), <- Hm.
  apply C101_ffbs_law; try assumption.
  - intros ->. discriminate.
  - intros i Hi. destruct (Hxs i Hi) as [Hi1 Hi2]. apply (exact_linked lowest n b eq_dec (xs i) (start i) (dens i) (obs i) i Hi Hi1 Hi2 Hn (H1 i) (H2 i) (H3 i) states Hf (He i Hi)).
Qed.
Print Assumptions C101_ffbs_posterior.

(** * Systematic resampling, and Categorical by inversion, fulfil the conditions *)
Definition categorical_mat (u : nat -> nat -> R) (n b : nat) (logits : nat -> nat -> list xf) : res (mat nat) :=
  Ok (Mat n b (fun i j => chosen (map (fun x => Fin (lik x)) (logits i j)) (u j i))).

Theorem C101_systematic_fair : forall lowest n b j, 0 < n -> j < b -> fair_pick (fun u => systematic_mat lowest u false) (offsets b) lowest n b j.
Proof.
  intros lowest n b j Hn Hj.
  assert (Hu : forall u, supp (offsets b) u -> forall q, (0 <= u q <= 1)%R) by (intros u Hu q; pose proof (proj1 (supp_independent _ _ _ _) Hu q) as H; cbn in H; lra).
  assert (G : forall u m, supp (offsets b) u -> shaped m n b -> exists s, systematic_mat lowest u false m = Ok s /\ valid_selection n b s /\
    forall q, q < b -> systematic lowest (fun _ => u q) (W1 (col m q)) false None = Ok (I1 (col s q))).
  { intros u m Hs [R1 R2]. destruct (C17_batch_is_columnwise lowest u m false ltac:(lia) (Hu u Hs)) as (out & Eo & O1 & O2 & Hc).
    exists out. unfold systematic_mat. rewrite Eo. split; [reflexivity|]. split; [|intros q Hq; apply Hc; lia]. split; [split; congruence|].
    apply (fin_cols n b j Hn Hj). intros q Hq. rewrite O2 in Hq. specialize (Hc q Hq).
    destruct (C11_valid_indices lowest (fun _ => u q) (col m q) false None) as (out' & Eo' & _ & Hv); [|intros; now apply Hu|].
    - intros E'. apply (f_equal (@List.length xf)) in E'. rewrite length_col in E'. simpl in E'. lia.
    - rewrite Hc in Eo'. injection Eo' as <-. rewrite length_col, R1 in Hv. apply Forall_forall. exact Hv. }
  split.
  - intros u m Hs Hm. destruct (G u m Hs Hm) as (s & E & V & _). now exists s.
  - intros m i Hm Hf Hi. pose proof (independent_ok uniform uniform_ok (fun _ => (/ 2)%R) ltac:(intros; cbn; lra) b) as OU. destruct Hm as [R1 R2].
    apply (averages_ext _ OU (fun u => INR (copies i (selected1 (systematic lowest (fun _ => u j) (W1 (col m j)) false None))))).
    + intros u Hs. destruct (G u m Hs ltac:(now split)) as (s & E & V & Hc). rewrite E, (Hc j Hj). reflexivity.
    + apply (independent_one uniform uniform_ok (fun _ => (/ 2)%R) ltac:(intros; cbn; lra) b j (fun a => INR (copies i (selected1 (systematic lowest (fun _ => a) (W1 (col m j)) false None))))); [|exact Hj].
      apply uniform_is. replace n with (List.length (col m j)) by (now rewrite length_col). apply C85_systematic_log.
      * intros E'. apply (f_equal (@List.length xf)) in E'. rewrite length_col in E'. simpl in E'. lia.
      * intros x Hx. apply in_col in Hx. destruct Hx as (k & Hk & <-). specialize (Hf k j Hk ltac:(lia)). destruct (m_get m k j); try destruct Hf; exact I.
      * rewrite length_col. lia.
Qed.
Print Assumptions C101_systematic_fair.

Theorem C101_categorical_fair : forall n b, fair_categorical categorical_mat (uniforms n b) n b.
Proof.
  intros n b logits Hl.
  assert (Hb : forall q : nat, supp uniform (/ 2)%R) by (intros; cbn; lra).
  assert (O1 : law_ok (independent uniform n (fun _ => (/ 2)%R))) by (apply independent_ok; [exact uniform_ok|exact Hb]).
  assert (S1 : forall q : nat, supp (independent uniform n (fun _ => (/ 2)%R)) (fun _ => (/ 2)%R)) by (intros; apply supp_independent; exact Hb).
  split.
  - intros u Hu. eexists. split; [reflexivity|]. split; [now split|]. intros i j Hi Hj. cbn [m_rows m_cols m_get] in *.
    pose proof (proj1 (supp_independent _ _ _ _) (proj1 (supp_independent _ _ _ _) Hu j) i) as H. cbn in H. destruct (Hl i j Hi Hj) as [L _].
    pose proof (chosen_lt (map (fun x => Fin (lik x)) (logits i j)) (u j i)) as C. rewrite map_length, L in C. apply C; [|lra].
    intros E. apply (f_equal (@List.length xf)) in E. rewrite map_length in E. simpl in E. lia.
  - intros i j k Hi Hj Hk. destruct (Hl i j Hi Hj) as [L [C E]]. cbn [categorical_mat m_get].
    apply (independent_one _ O1 _ S1 b j (fun v => if Nat.eq_dec (chosen (map (fun x => Fin (lik x)) (logits i j)) (v i)) k then 1%R else 0%R)); [|exact Hj].
    apply (independent_one uniform uniform_ok _ Hb n i (fun a => if Nat.eq_dec (chosen (map (fun x => Fin (lik x)) (logits i j)) a) k then 1%R else 0%R)); [|exact Hi].
    set (p := map lik (logits i j)). rewrite <- (map_map lik Fin). fold p.
    assert (Pp : forall x, In x p -> (0 <= x)%R) by (intros x Hx; apply in_map_iff in Hx; destruct Hx as ([a| | |] & <- & _); cbn; try lra; left; apply exp_pos).
    assert (Ps : (0 < Rsum p)%R).
    { apply Exists_exists in E. destruct E as (z & Hz & Fz). destruct z as [a| | |]; try destruct Fz.
      apply Rlt_le_trans with (lik (Fin a)); [apply exp_pos|]. apply (over_one_le (logits i j) lik); [|exact Hz]. intros [y| | |] _; cbn; try lra; left; apply exp_pos. }
    pose proof (chosen_mean p (fun c => if Nat.eq_dec c k then 1%R else 0%R) Pp Ps) as M. refine (eq_rect _ (averages uniform _) M _ _).
    assert (Lp : List.length p = n) by (unfold p; now rewrite map_length).
    rewrite Lp, (sumto_ext n _ (fun c => if Nat.eq_dec k c then nth c (share p) 0 else 0)%R).
    + rewrite sumto_single by exact Hk. unfold share. rewrite (nth_map' (fun x => x / Rsum p)%R p k 0%R 0%R) by lia. f_equal. unfold p. apply nth_map'. lia.
    + intros c _. destruct (Nat.eq_dec c k) as [->|N]; destruct (Nat.eq_dec k _); try lia; try ring.
Qed.
Print Assumptions C101_categorical_fair.

(** Both together. *)
Theorem C101_ffbs_systematic : forall (X : Type) lowest n b j (dens : nat -> nat -> X -> X -> R) states F r w,
  0 < n -> j < b -> (forall i t x x', (0 <= dens i t x x')%R) ->
  states <> [] -> (forall s, In s states -> weighted_state n b s) -> (forall i, i < b -> linked n i (dens i) states) ->
  averages_over (offsets b) (uniforms n b) (List.length states) r
    (fun w => trajectory_mean n j F
       (smooth (fun r => systematic_mat lowest (fst (w r)) false) (fun t i x x' => log_of (dens i t x x')) (fun r => categorical_mat (snd (w r))) r n b states "ffbs")) w
    (backward_average lowest n j (dens j) states F).
Proof.
  intros X lowest n b j dens states F r w Hn Hj Hd Hne Hs Hl.
  apply (C101_ffbs_law X (nat -> R) (nat -> nat -> R) lowest (fun u => systematic_mat lowest u false) categorical_mat); try assumption.
  - apply independent_ok; [exact uniform_ok|intros; cbn; lra].
  - apply OU2.
  - now apply C101_systematic_fair.
  - apply C101_categorical_fair.
Qed.
Print Assumptions C101_ffbs_systematic.

(** * States recorded at every second time *)
(** A process on two values that changes its value with probability 9/10; the start is uniform, nothing is observed. *)
Definition flip (_ : nat) (x x' : bool) : R := if Bool.eqb x x' then (/ 10)%R else (9 / 10)%R.
Definition half (_ : bool) : R := (/ 2)%R.
Definition unseen (_ : nat) (_ : bool) : R := 1%R.
Definition even_state (t : nat) : corr bool :=
  Corr (TS t (Mat 2 1 (fun i _ => i =? 0))) (Mat 2 1 (fun _ _ => Fin 0)) (fun _ => Fin 0) (Mat 2 1 (fun i _ => i)).
Definition same (path : list bool) : R := match path with [x; y] => if Bool.eqb x y then 1%R else 0%R | _ => 0%R end.
Lemma even_state_ok t : weighted_state 2 1 (even_state t).
Proof. split; [constructor; [now split|now split|intros i j _ _; exact I|split; [now split|intros i j Hi _; exact Hi]]|intros i j _ _; exact I]. Qed.
Lemma flip_onward m t past x : onward [true; false] flip unseen m t past x (fun _ => 1%R) = 1%R.
Proof.
  revert t past x. induction m as [|m IH]; intros t past x; cbn [onward map]; [reflexivity|]. unfold Rsum. cbn [map fold_right]. rewrite !IH.
  unfold unseen. destruct x; unfold flip; cbn [Bool.eqb]; lra.
Qed.
Lemma flip_alpha t x : alpha [true; false] half flip unseen t x = (/ 2)%R.
Proof.
  revert x. induction t as [|t IH]; intros x; cbn [alpha]; [unfold half, unseen; lra|]. unfold over, Rsum. cbn [map fold_right]. rewrite !IH. unfold unseen.
  destruct x; unfold flip; cbn [Bool.eqb]; lra.
Qed.
Lemma even_exact lowest every : exact_states lowest 0 every Bool.bool_dec [true; false] half flip unseen [even_state 0; even_state 1; even_state (S every)].
Proof.
  assert (Nd : NoDup [true; false]) by (constructor; [intros [E|[]]; discriminate|constructor; [intros []|constructor]]).
  assert (G : forall t, imp lowest (col (c_w (even_state t)) 0) = map (filtered [true; false] half flip unseen Bool.bool_dec t) [true; false]).
  { intros t. cbn [map]. rewrite !(filtered_alpha [true; false] half flip unseen true Bool.bool_dec t) by (try exact Nd; cbn; tauto).
    unfold over, Rsum. cbn [map fold_right]. rewrite !flip_alpha. unfold imp, col, Rsum. cbn. rewrite exp_0. f_equal; [lra|]. f_equal. lra. }
  intros [|[|[|q]]] s H; cbn in H; [| | |destruct q; discriminate]; injection H as <-; cbn [recorded_time];
    rewrite ?Nat.mul_0_r, ?Nat.mul_1_r; (split; [reflexivity|]); (split; [reflexivity|]); apply G.
Qed.

(** What happens if it is not done, which nothing checks: with observe_every_step = 2 and the default of not recording
    intermediary states, the states are those of times 0, 1, 3, but
    the smoother moves back with the density of one step: the average of "the same value at times 1 and 3" is 1/10 where
    the posterior says 82/100. *)
Theorem C101_needs_every_state : forall lowest r w,
  let states := [even_state 0; even_state 1; even_state 3] in
  (forall s, In s states -> weighted_state 2 1 s) /\
  exact_states lowest 0 2 Bool.bool_dec [true; false] half flip unseen states /\
  averages_over (offsets 1) (uniforms 2 1) 3 r
    (fun w => trajectory_mean 2 0 (fun path => same (tl path))
       (smooth (fun r => systematic_mat lowest (fst (w r)) false) (fun t i x x' => log_of (flip t x x')) (fun r => categorical_mat (snd (w r))) r 2 1 states "ffbs")) w
    (/ 10)%R /\
  posterior [true; false] half flip unseen 3 (fun path => same [nth 1 path true; nth 3 path true]) = (82 / 100)%R.
Proof.
  intros lowest r w states.
  assert (Hok : forall s, In s states -> weighted_state 2 1 s) by (intros s [<-|[<-|[<-|[]]]]; apply even_state_ok).
  split; [exact Hok|]. split; [apply even_exact|]. split.
  - pose proof (C101_ffbs_systematic bool lowest 2 1 0 (fun _ => flip) states (fun path => same (tl path)) r w ltac:(lia) ltac:(lia)) as H.
    replace (/ 10)%R with (backward_average lowest 2 0 flip states (fun path => same (tl path))).
    + apply H.
      * intros i t x x'. unfold flip. destruct (Bool.eqb x x'); lra.
      * discriminate.
      * exact Hok.
      * intros i Hi. split; [|split; [|exact I]]; intros k Hk; exists 0; (split; [lia|]); unfold flip; destruct (Bool.eqb _ _); lra.
    + assert (Ew : forall t k, k < 2 -> weight lowest 0 (even_state t) k = (/ 2)%R).
      { intros t k Hk. unfold weight, imp, col, Rsum. cbn. rewrite exp_0. destruct k as [|[|k]]; [| |lia]; cbn; lra. }
      unfold backward_average, states. cbn [rev app back]. unfold sum_below at 1, Rsum. cbn [map seq fold_right].
      unfold sum_below, Rsum, ancestry. cbn [map seq fold_right]. rewrite !Ew by lia.
      unfold place. cbn [c_x even_state ts_val m_get ts_time Nat.eqb tl]. unfold same, flip. cbn [Bool.eqb]. field.
  - unfold posterior, over_paths. cbn [onward map rev app]. unfold Rsum, half, unseen, flip. cbn. field.
Qed.
Print Assumptions C101_needs_every_state.

(** The same process recorded at every time, with an observation at time 1 that favours one value. *)
Definition favour (t : nat) (x : bool) : R := if (t =? 1) && x then 3%R else 1%R.
Definition favour_state (t : nat) (a : R) : corr bool :=
  Corr (TS t (Mat 2 1 (fun i _ => i =? 0))) (Mat 2 1 (fun i _ => if i =? 0 then Fin a else Fin 0)) (fun _ => Fin 0) (Mat 2 1 (fun i _ => i)).
Lemma favour_ok t a : weighted_state 2 1 (favour_state t a).
Proof.
  split; [constructor; [now split|now split| |split; [now split|intros i j Hi _; exact Hi]]|]; intros i j _ _; cbn; destruct (i =? 0); exact I.
Qed.
Lemma favour_exact lowest : exact_states lowest 0 1 Bool.bool_dec [true; false] half flip favour [favour_state 0 0; favour_state 1 (ln 3)].
Proof.
  assert (Nd : NoDup [true; false]) by (constructor; [intros [E|[]]; discriminate|constructor; [intros []|constructor]]).
  intros [|[|q]] s H; cbn in H; [| |destruct q; discriminate]; injection H as <-; (split; [reflexivity|]); (split; [reflexivity|]);
    cbn [map]; rewrite !(filtered_alpha [true; false] half flip favour true Bool.bool_dec) by (try exact Nd; cbn; tauto);
    unfold over, Rsum, imp, col, Rsum; cbn; unfold half, favour, flip; cbn; rewrite ?exp_0, ?exp_ln by lra; (f_equal; [field|f_equal; field]).
Qed.
Example C101_nonvacuous : forall lowest r w,
  averages_over (offsets 1) (uniforms 2 1) 2 r
    (fun w => trajectory_mean 2 0 (fun path => if nth 0 path true then 1 else 0)%R
       (smooth (fun r => systematic_mat lowest (fst (w r)) false) (fun t i x x' => log_of (flip t x x')) (fun r => categorical_mat (snd (w r))) r 2 1
          [favour_state 0 0; favour_state 1 (ln 3)] "ffbs")) w
    (3 / 10)%R.
Proof.
  intros lowest r w. replace (3 / 10)%R with (posterior [true; false] half flip favour 1 (fun path => if nth 0 path true then 1 else 0)%R).
  - apply (C101_ffbs_posterior bool (nat -> R) (nat -> nat -> R) Bool.bool_dec lowest (fun u => systematic_mat lowest u false) categorical_mat (offsets 1) (uniforms 2 1) 2 1 0
      (fun _ => [true; false]) (fun _ => half) (fun _ => flip) (fun _ => favour)).
    + apply independent_ok; [exact uniform_ok|intros; cbn; lra].
    + apply OU2.
    + lia.
    + lia.
    + apply C101_systematic_fair; lia.
    + apply C101_categorical_fair.
    + intros i _. split; [|reflexivity]. constructor; [intros [E|[]]; discriminate|constructor; [intros []|constructor]].
    + intros i x. unfold half. lra.
    + intros i t x x'. unfold flip. destruct (Bool.eqb x x'); lra.
    + intros i t x. unfold favour. destruct ((t =? 1) && x); lra.
    + reflexivity.
    + intros s [<-|[<-|[]]]; apply favour_ok.
    + intros i Hi. replace i with 0 by lia. apply favour_exact.
  - unfold posterior, over_paths. cbn [onward map rev app]. unfold Rsum, half, favour, flip. cbn. field.
Qed.
