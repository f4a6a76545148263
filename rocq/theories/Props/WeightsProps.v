(** Properties C05-C10 (pyfilter/utils.py, pyfilter/filters/particle/utils.py). *)
From Coq Require Import Reals List Lra Lia Psatz Permutation.
From Verif.Model Require Import Base Xf Weights.
From Verif.Spec Require Import WeightsSpec.
From Verif.Proofs Require Import WeightsProofs MomentsProofs.
Import ListNotations.
Open Scope R_scope.

(** * C05 *)

(** Simplex, zero for unusable entries, and proportional to exp(level) among the others. *)
Theorem C05_normalised_simplex : forall (lowest : R) (ws : list xf),
  (exists x, In x ws /\ usable lowest x) ->
  exists ps arg, normalize lowest ws = Ok (map Fin ps, arg) /\ length ps = length ws /\ prob_vec ps /\
    forall i x p, nth_error ws i = Some x -> nth_error ps i = Some p ->
      (~ usable lowest x -> p = 0) /\
      (forall r, level lowest x = Some r -> 0 < p /\
         forall j y q s, nth_error ws j = Some y -> nth_error ps j = Some q -> level lowest y = Some s ->
           p * exp s = q * exp r).
Proof.
  intros lowest ws Hex. destruct (normalize_simplex lowest ws Hex) as (ps & E & Hl & Hp & H).
  exists ps, (map (nan_to_num lowest) ws). repeat split; try assumption; try apply Hp.
  - intros Hu. apply (H i x p H0 H1). destruct (level lowest x) eqn:El; [|reflexivity].
    exfalso. apply Hu. eexists; eassumption.
  - apply (proj2 (H i x p H0 H1) r H2).
  - apply (proj2 (H i x p H0 H1) r H2).
Qed.
Print Assumptions C05_normalised_simplex.

Theorem C05_shift_invariant : forall (lowest : R) (rs : list R) (c : R), rs <> [] -> exists out,
  normalize lowest (map Fin rs) = Ok (out, map Fin rs) /\
  normalize lowest (map (fun r => Fin (r + c)) rs) = Ok (out, map (fun r => Fin (r + c)) rs).
Proof. exact normalize_shift. Qed.
Print Assumptions C05_shift_invariant.

(** One function of the entry serves the vector and every reordering of it. *)
Theorem C05_permutation_equivariant : forall (lowest : R) (ws ws' : list xf),
  Permutation ws ws' -> ws <> [] -> exists f arg arg',
  normalize lowest ws = Ok (map f ws, arg) /\ normalize lowest ws' = Ok (map f ws', arg').
Proof.
  intros l ws ws' Hp Hne. destruct (normalize_perm l ws ws' Hp Hne) as (f & H1 & H2).
  exists f. eexists _, _. split; eassumption.
Qed.
Print Assumptions C05_permutation_equivariant.

Example C05_nonvacuous :
  (exists x, In x [NaN; Fin 1; PInf; NInf] /\ usable (-100) x) /\
  exists ps arg, normalize (-100) [NaN; Fin 1; PInf; NInf] = Ok (map Fin ps, arg) /\
    nth_error ps 0 = Some 0 /\ nth_error ps 2 = Some 0.
Proof.
  assert (Hex : exists x, In x [NaN; Fin 1; PInf; NInf] /\ usable (-100) x)
    by (exists (Fin 1); split; [simpl; tauto|now exists 1]).
  split; [exact Hex|].
  destruct (C05_normalised_simplex (-100) _ Hex) as (ps & arg & E & Hl & _ & H).
  exists ps, arg. split; [exact E|].
  assert (Hn : forall i, (i < 4)%nat -> exists p, nth_error ps i = Some p).
  { intros i Hi. destruct (nth_error ps i) eqn:En; [eauto|]. apply nth_error_None in En. simpl in Hl. lia. }
  destruct (Hn 0%nat) as [p0 H0]; [lia|]. destruct (Hn 2%nat) as [p2 H2]; [lia|].
  split.
  - rewrite H0. f_equal. apply (H 0%nat NaN p0); [reflexivity|assumption|]. intros [r Hr]; discriminate.
  - rewrite H2. f_equal. apply (H 2%nat PInf p2); [reflexivity|assumption|]. intros [r Hr]; discriminate.
Qed.

(** * C06 *)

(** The full claim: a vector without any finite entry is normalised to the uniform vector. *)
Definition uniform_fallback (lowest : R) : Prop := forall ws, ws <> [] ->
  (forall x, In x ws -> forall r, x <> Fin r) ->
  exists arg, normalize lowest ws = Ok (map (fun _ => Fin (/ INR (length ws))) ws, arg).

(** False: NaN everywhere gives NaN everywhere. *)
Theorem C06_uniform_fallback_refuted : forall lowest, ~ uniform_fallback lowest.
Proof.
  intros lowest H. destruct (H [NaN; NaN]) as (arg & E); [discriminate| |].
  - intros x [<-|[<-|[]]] r; discriminate.
  - rewrite normalize_dead in E; [discriminate|discriminate|].
    intros x [<-|[<-|[]]] [r Hr]; discriminate.
Qed.
Print Assumptions C06_uniform_fallback_refuted.

(** What does happen: NaN/+inf everywhere gives NaN everywhere, -inf everywhere gives the uniform vector. *)
Theorem C06_degenerate_outcome_partial : forall lowest ws, ws <> [] ->
  ((forall x, In x ws -> x = NaN \/ x = PInf) ->
     normalize lowest ws = Ok (map (fun _ => NaN) ws, map (fun _ => NInf) ws)) /\
  ((forall x, In x ws -> x = NInf) ->
     normalize lowest ws = Ok (map (fun _ => Fin (/ INR (length ws))) ws, map (fun _ => Fin lowest) ws)).
Proof.
  intros lowest ws Hne. split.
  - intros H. apply normalize_dead; [assumption|]. intros x Hx [r Hr]. destruct (H x Hx); subst; discriminate.
  - intros H. rewrite normalize_usable.
    + do 2 f_equal.
      * apply map_ext_in. intros x Hx. rewrite (H x Hx). f_equal. unfold total.
        rewrite (Rsum_map_ext _ (fun _ => exp lowest)) by (intros y Hy; now rewrite (H y Hy)).
        rewrite Rsum_map_const. unfold mass; simpl. pose proof (exp_pos lowest).
        assert (INR (length ws) <> 0) by (apply not_0_INR; destruct ws; [congruence|discriminate]).
        field. split; lra.
      * apply map_ext_in. intros x Hx. now rewrite (H x Hx).
    + destruct ws as [|x ws]; [congruence|]. exists x. split; [now left|].
      rewrite (H x) by now left. now exists lowest.
Qed.
Print Assumptions C06_degenerate_outcome_partial.

(** The masked fill is dead code: the column sum it tests is never zero. *)
Theorem C06_fallback_unreachable : forall lowest ws, ws <> [] ->
  xeq (xsum (shifted_softmax (map (nan_to_num lowest) ws))) (Fin 0) = false.
Proof. exact fallback_dead. Qed.
Print Assumptions C06_fallback_unreachable.

Example C06_nonvacuous :
  normalize (-5) [NInf; NInf] = Ok ([Fin (/ 2); Fin (/ 2)], [Fin (-5); Fin (-5)]) /\
  normalize (-5) [NaN; PInf] = Ok ([NaN; NaN], [NInf; NInf]).
Proof.
  destruct (C06_degenerate_outcome_partial (-5) [NInf; NInf]) as [_ H1]; [discriminate|].
  destruct (C06_degenerate_outcome_partial (-5) [NaN; PInf]) as [H2 _]; [discriminate|].
  rewrite H1 by (simpl; intuition congruence). rewrite H2 by (simpl; intuition congruence). split; [|reflexivity].
  simpl. replace (1 + 1) with 2 by lra. reflexivity.
Qed.

(** * C07 *)

(** The [k]-th repetition (0: the first call) of normalize on one and the same tensor. *)
Fixpoint repeated_call (lowest : R) (k : nat) (ws : list xf) : res (list xf * list xf) :=
  match k with
  | O => normalize lowest ws
  | S k => match normalize lowest ws with Ok (_, arg) => repeated_call lowest k arg | Raise e => Raise e end
  end.
Definition returned (r : res (list xf * list xf)) : option (list xf) :=
  match r with Ok (out, _) => Some out | Raise _ => None end.

Lemma repeated_usable lowest k : forall ws, ws <> [] -> (forall x, In x ws -> usable lowest x) ->
  returned (repeated_call lowest k ws) = returned (normalize lowest ws).
Proof.
  induction k as [|k IH]; intros ws Hne Hall; [reflexivity|].
  destruct (normalize_again_usable lowest ws Hne Hall) as (out & E1 & E2).
  simpl. rewrite E1. rewrite IH.
  - now rewrite E2.
  - intros H. apply map_eq_nil in H. congruence.
  - intros x Hx. apply in_map_iff in Hx. destruct Hx as (y & <- & _). eexists. apply level_twice.
Qed.

(** Without NaN and +inf every repetition returns what the first call returned. *)
Theorem C07_repeatable : forall lowest ws k, ws <> [] -> (forall x, In x ws -> usable lowest x) ->
  exists out, returned (normalize lowest ws) = Some out /\ returned (repeated_call lowest k ws) = Some out.
Proof.
  intros lowest ws k Hne Hall. rewrite repeated_usable by assumption.
  destruct (normalize_shape lowest ws Hne) as (out & arg & -> & _). exists out. split; reflexivity.
Qed.
Print Assumptions C07_repeatable.

(** Whatever the entries: from the second call on the answer no longer changes. *)
Theorem C07_stable_from_second : forall lowest ws k, ws <> [] ->
  exists out, returned (repeated_call lowest 1 ws) = Some out /\ returned (repeated_call lowest (S k) ws) = Some out.
Proof.
  intros lowest ws k Hne. destruct (normalize_shape lowest ws Hne) as (o1 & a1 & E1 & _ & Ea).
  assert (Hne1 : a1 <> []) by (subst a1; intros H; apply map_eq_nil in H; congruence).
  simpl. rewrite E1. rewrite repeated_usable; [|assumption|].
  - destruct (normalize_shape lowest a1 Hne1) as (o2 & a2 & E2 & _). rewrite E2. exists o2. split; reflexivity.
  - subst a1. intros x Hx. apply in_map_iff in Hx. destruct Hx as (y & <- & _). eexists. apply level_twice.
Qed.
Print Assumptions C07_stable_from_second.

(** With unusable entries first and second answer differ by at most n exp(lowest - r), r any usable level. *)
Theorem C07_second_call_bound : forall lowest ws x0 r0, In x0 ws -> level lowest x0 = Some r0 ->
  exists ps qs, returned (repeated_call lowest 0 ws) = Some (map Fin ps) /\
    returned (repeated_call lowest 1 ws) = Some (map Fin qs) /\
    length ps = length ws /\ length qs = length ws /\
    forall i p q, nth_error ps i = Some p -> nth_error qs i = Some q ->
      Rabs (q - p) <= INR (length ws) * exp (lowest - r0).
Proof.
  intros lowest ws x0 r0 Hx Hr.
  destruct (normalize_again_bound lowest ws x0 r0 Hx Hr) as (ps & qs & E1 & (arg & E2) & Hl & Hl2 & H).
  exists ps, qs. simpl. rewrite E1, E2. auto.
Qed.
Print Assumptions C07_second_call_bound.

(** NaN everywhere: NaN the first time, uniform every time after. *)
Theorem C07_all_nan_changes : forall lowest ws k, ws <> [] -> (forall x, In x ws -> x = NaN \/ x = PInf) ->
  returned (repeated_call lowest 0 ws) = Some (map (fun _ => NaN) ws) /\
  returned (repeated_call lowest (S k) ws) = Some (map (fun _ => Fin (/ INR (length ws))) ws).
Proof.
  intros lowest ws k Hne Hall.
  destruct (C06_degenerate_outcome_partial lowest ws Hne) as [H1 _]. specialize (H1 Hall).
  split; [simpl; now rewrite H1|].
  assert (Hne1 : map (fun _ : xf => NInf) ws <> []) by (intros H; apply map_eq_nil in H; congruence).
  simpl. rewrite H1, repeated_usable; [|assumption|].
  - destruct (C06_degenerate_outcome_partial lowest _ Hne1) as [_ H2].
    rewrite H2.
    + simpl. now rewrite map_length, map_map.
    + intros x Hx. apply in_map_iff in Hx. now destruct Hx as (y & <- & _).
  - intros x Hx. apply in_map_iff in Hx. destruct Hx as (y & <- & _). now exists lowest.
Qed.
Print Assumptions C07_all_nan_changes.

(** The full claim "equal answers for every vector with a finite entry" is false. *)
Theorem C07_repeatable_refuted : forall lowest, exists ws, (exists r, In (Fin r) ws) /\
  returned (repeated_call lowest 0 ws) <> returned (repeated_call lowest 1 ws).
Proof.
  intros lowest. exists [NaN; Fin 0]. split; [exists 0; simpl; tauto|].
  assert (Hu : usable lowest (Fin 0)) by now exists 0.
  cbn [repeated_call]. rewrite (normalize_usable lowest [NaN; Fin 0]).
  2:{ exists (Fin 0). split; [simpl; tauto|exact Hu]. }
  rewrite (normalize_usable lowest (map (nan_to_num lowest) [NaN; Fin 0])).
  2:{ exists (Fin 0). split; [simpl; tauto|exact Hu]. }
  simpl. intros [= H _]. unfold total, mass, Rsum in H; simpl in H.
  rewrite exp_0 in H. pose proof (exp_pos lowest) as He.
  assert (0 < exp lowest / (exp lowest + (1 + 0))).
  { apply Rmult_lt_0_compat; [assumption|]. apply Rinv_0_lt_compat. lra. }
  lra.
Qed.
Print Assumptions C07_repeatable_refuted.

Example C07_nonvacuous : (forall x, In x [Fin 0; NInf] -> usable (-5) x) /\ level (-5) (Fin 0) = Some 0.
Proof. split; [|reflexivity]. intros x [<-|[<-|[]]]; eexists; reflexivity. Qed.

(** * C08 *)

Theorem C08_ess_bounds : forall lowest (p : list R), prob_vec p ->
  exists e, get_ess lowest (map Fin p) true = Ok (Fin e, map Fin p) /\
    1 <= e <= INR (length p) /\
    (e = INR (length p) <-> forall x, In x p -> x = / INR (length p)) /\
    (e = 1 <-> exists l1 l2, p = l1 ++ 1 :: l2 /\ forall x, In x (l1 ++ l2) -> x = 0).
Proof.
  intros lowest p Hp. eexists. split; [apply get_ess_fin, Hp|]. apply ess_bounds, Hp.
Qed.
Print Assumptions C08_ess_bounds.

(** The same bound for log weights, which get_ess normalises itself. *)
Theorem C08_ess_bounds_log : forall lowest (ws : list xf), (exists x, In x ws /\ usable lowest x) ->
  exists e arg, get_ess lowest ws false = Ok (Fin e, arg) /\ 1 <= e <= INR (length ws).
Proof.
  intros lowest ws Hex. destruct (normalize_simplex lowest ws Hex) as (ps & E & Hl & Hp & _).
  destruct (get_ess_fin lowest ps Hp) as [Eg _]. unfold get_ess in *. rewrite E. simpl in *.
  injection Eg as Eg. eexists _, _. split; [now rewrite Eg|].
  rewrite <- Hl. apply (ess_bounds ps Hp).
Qed.
Print Assumptions C08_ess_bounds_log.

Example C08_nonvacuous : prob_vec [/4; /4; /2] /\ prob_vec [0; 1; 0].
Proof.
  split; split; try (unfold Rsum; simpl; lra); simpl; intros x H;
    repeat (destruct H as [<-|H]; [lra|]); contradiction.
Qed.

(** * C09 *)

Lemma combine_repeat_map (c : R) l : combine (repeat c (length l)) l = map (fun x : R => (c, x)) l.
Proof. induction l; simpl; congruence. Qed.

Lemma expect_exp_pos W rs : prob_vec W -> length W = length rs -> 0 < expect exp W rs.
Proof.
  intros [Hn Hs] Hl.
  destruct (prob_vec_some_pos W (conj Hn Hs)) as (a & Ha & Hap). unfold expect. apply Rsum_pos.
  - intros y Hy. apply in_map_iff in Hy. destruct Hy as ([b x] & <- & Hin). simpl.
    pose proof (Hn b (in_combine_l _ _ _ _ Hin)). pose proof (exp_pos x). nra.
  - rewrite <- (map_fst_combine W rs Hl) in Ha. apply in_map_iff in Ha. destruct Ha as ([b x] & Hb & Hin).
    simpl in Hb; subst b. exists (a * exp x). split; [|pose proof (exp_pos x); nra].
    apply in_map_iff. now exists (a, x).
Qed.

Lemma uniform_prob n : (0 < n)%nat -> prob_vec (repeat (/ INR n) n).
Proof.
  intros Hn. assert (0 < INR n) by now apply lt_0_INR. split.
  - intros x Hx. apply repeat_spec in Hx. subst. left. now apply Rinv_0_lt_compat.
  - assert (E : forall m c, Rsum (repeat c m) = INR m * c).
    { induction m; intros c; [unfold Rsum; simpl; lra|]. rewrite S_INR. unfold Rsum in *; simpl. rewrite IHm. lra. }
    rewrite E. field. lra.
Qed.

(** The value for finite log weights, with given and with default (uniform) weights. *)
Theorem C09_log_of_weighted_mean : forall (rs W : list R), prob_vec W -> length W = length rs ->
  log_likelihood (map Fin rs) (Some (map Fin W)) = Ok (Fin (ln (expect exp W rs))) /\
  log_likelihood (map Fin rs) None = Ok (Fin (ln (expect exp (repeat (/ INR (length rs)) (length rs)) rs))).
Proof.
  intros rs W HW Hl.
  assert (Hne : rs <> []) by (intros ->; destruct W; [|discriminate]; now apply prob_vec_nonempty in HW).
  destruct rs as [|r0 rs']; [congruence|]. set (rs := r0 :: rs') in *.
  assert (Hc : forall x, In x (map Fin rs) -> clean x) by (intros x Hx; apply in_map_iff in Hx; destruct Hx as (y & <- & _); exact I).
  assert (Hr : In (Fin r0) (map Fin rs)) by now left.
  split.
  - rewrite (log_likelihood_weighted _ W r0 Hc Hr). rewrite combine_map_r, map_map. simpl fst; simpl snd.
    change (Rsum (map (fun x : R * R => fst x * lik (Fin (snd x))) (combine W rs))) with (expect exp W rs).
    simpl. now rewrite rsign_pos by now apply expect_exp_pos.
  - rewrite (log_likelihood_uniform _ r0 Hc Hr). rewrite map_length, map_map.
    assert (E : Rsum (map (fun x => / INR (length rs) * lik (Fin x)) rs) = expect exp (repeat (/ INR (length rs)) (length rs)) rs).
    { unfold expect. rewrite combine_repeat_map, map_map. reflexivity. }
    rewrite E. unfold xlog. rewrite rsign_pos; [reflexivity|].
    apply expect_exp_pos; [apply uniform_prob; simpl; lia|apply repeat_length].
Qed.
Print Assumptions C09_log_of_weighted_mean.

Theorem C09_between_min_and_max : forall (rs W : list R) lo hi, prob_vec W -> length W = length rs ->
  (forall r, In r rs -> lo <= r <= hi) ->
  exists l, log_likelihood (map Fin rs) (Some (map Fin W)) = Ok (Fin l) /\ lo <= l <= hi.
Proof.
  intros rs W lo hi HW Hl Hb. eexists. split; [now apply C09_log_of_weighted_mean|].
  destruct (weighted_bounds W rs exp (exp lo) (exp hi) HW Hl) as [H1 H2].
  { intros x Hx. destruct (Hb x Hx) as [[H1|H1] [H2|H2]]; split; try (left; apply exp_increasing; assumption); subst; try lra. }
  split.
  - rewrite <- (ln_exp lo). destruct H1 as [H1|H1]; [left; apply ln_increasing; [apply exp_pos|assumption]|now rewrite <- H1; right].
  - rewrite <- (ln_exp hi). destruct H2 as [H2|H2]; [left; apply ln_increasing; [now apply expect_exp_pos|assumption]|rewrite H2; now right].
Qed.
Print Assumptions C09_between_min_and_max.

Theorem C09_shift : forall (rs W : list R) c, prob_vec W -> length W = length rs ->
  exists l, log_likelihood (map Fin rs) (Some (map Fin W)) = Ok (Fin l) /\
            log_likelihood (map (fun r => Fin (r + c)) rs) (Some (map Fin W)) = Ok (Fin (l + c)).
Proof.
  intros rs W c HW Hl. eexists. split; [now apply C09_log_of_weighted_mean|].
  rewrite <- (map_map (fun r => r + c) Fin).
  destruct (C09_log_of_weighted_mean (map (fun r => r + c) rs) W HW) as [-> _]; [now rewrite map_length|].
  do 2 f_equal. assert (E : expect exp W (map (fun r => r + c) rs) = exp c * expect exp W rs).
  { unfold expect. rewrite combine_map_r, map_map. simpl. rewrite <- Rsum_map_scale. apply Rsum_map_ext.
    intros p _. rewrite exp_plus. ring. }
  rewrite E, ln_mult, ln_exp by (try apply exp_pos; now apply expect_exp_pos). ring.
Qed.
Print Assumptions C09_shift.

(** Some -inf entries: they contribute nothing; if no positive weight sits on a finite entry the result is -inf. *)
Theorem C09_with_minus_infinity : forall (iw : list xf) (W : list R), prob_vec W -> length W = length iw ->
  (forall x, In x iw -> x <> NaN /\ x <> PInf) -> (exists r, In (Fin r) iw) ->
  let total := Rsum (map (fun p => fst p * lik (snd p)) (combine W iw)) in
  (0 < total /\ log_likelihood iw (Some (map Fin W)) = Ok (Fin (ln total))) \/
  (total = 0 /\ log_likelihood iw (Some (map Fin W)) = Ok NInf).
Proof.
  intros iw W HW Hl Hc [r Hr] total.
  rewrite (log_likelihood_weighted iw W r); [|intros x Hx; destruct (Hc x Hx); destruct x; simpl; tauto|assumption].
  fold total. assert (H0 : 0 <= total).
  { apply Rsum_nonneg. intros y Hy. apply in_map_iff in Hy. destruct Hy as ([b x] & <- & Hin). simpl.
    pose proof (proj1 HW b (in_combine_l _ _ _ _ Hin)). apply Rmult_le_pos; [assumption|].
    destruct x; simpl; try lra. left; apply exp_pos. }
  simpl. destruct H0 as [H0|H0].
  - left. split; [assumption|]. now rewrite rsign_pos.
  - right. split; [now symmetry|]. rewrite <- H0. now rewrite rsign_zero.
Qed.
Print Assumptions C09_with_minus_infinity.

(** All -inf: NaN, not -inf. *)
Theorem C09_all_minus_infinity : forall (iw : list xf) (W : list R),
  iw <> [] -> length W = length iw -> (forall x, In x iw -> x = NInf) ->
  log_likelihood iw (Some (map Fin W)) = Ok NaN /\ log_likelihood iw None = Ok NaN.
Proof.
  intros iw W Hne Hl Hall. rewrite !log_likelihood_dead by assumption.
  destruct iw as [|x iw]; [congruence|]. destruct W as [|w W]; [discriminate|]. simpl.
  split; rewrite ?xsum_nan; reflexivity || (left; reflexivity).
Qed.
Print Assumptions C09_all_minus_infinity.

Theorem C09_nan_propagates : forall iw ws, In NaN iw -> log_likelihood iw ws = Ok NaN.
Proof. intros iw ws H. now apply log_likelihood_nan. Qed.
Print Assumptions C09_nan_propagates.

Example C09_nonvacuous : prob_vec [/4; 3/4] /\
  expect exp [/4; 3/4] [0; 0] = 1 /\ (forall r, In r [0; 2] -> 0 <= r <= 2).
Proof.
  split; [split; [simpl; intros x [<-|[<-|[]]]; lra|unfold Rsum; simpl; lra]|].
  split; [unfold expect, Rsum; simpl; rewrite exp_0; lra|]. simpl; intros r [<-|[<-|[]]]; lra.
Qed.

(** * C10 *)

Theorem C10_moments : forall (w v : list R), prob_vec w -> length w = length v ->
  exists m s, filter_mean (map Fin v) (map Fin w) = Fin m /\
    filter_variance (map Fin v) (map Fin w) = Fin s /\
    m = expect (fun x => x) w v /\
    (forall lo hi, (forall x, In x v -> lo <= x <= hi) -> lo <= m <= hi) /\
    s = expect (fun x => (x - m) * (x - m)) w v /\
    0 <= s /\
    s = expect (fun x => x * x) w v - m * m /\
    (s = 0 <-> exists c, forall i a x, nth_error w i = Some a -> nth_error v i = Some x -> 0 < a -> x = c).
Proof.
  intros w v Hw Hl. eexists _, _. split; [apply filter_mean_fin|]. split; [apply filter_variance_fin|].
  split; [reflexivity|]. split; [intros lo hi H; now apply weighted_bounds|]. split; [reflexivity|].
  split; [now apply variance_nonneg|]. split; [apply variance_second_moment; [assumption|apply Hw]|].
  now apply variance_zero_iff.
Qed.
Print Assumptions C10_moments.

(** The covariance branch: E[ab] - E[a]E[b], symmetric and positive semi-definite. *)
Theorem C10_covariance : forall (w : list R) (cvs : list (R * list R)),
  prob_vec w -> (forall c v, In (c, v) cvs -> length v = length w) ->
  (forall c a d b, In (c, a) cvs -> In (d, b) cvs ->
     filter_covariance (map Fin a) (map Fin b) (map Fin w) = Fin (cov w a b) /\ cov w a b = cov w b a) /\
  0 <= Rsum (map (fun p => Rsum (map (fun q => fst p * fst q * cov w (snd p) (snd q)) cvs)) cvs).
Proof.
  intros w cvs Hw Hlen. split; [|now apply cov_psd].
  intros c a d b Ha Hb. apply Hlen in Ha, Hb. split; [apply filter_covariance_fin; try congruence; apply Hw|].
  apply cov_sym; congruence.
Qed.
Print Assumptions C10_covariance.

Example C10_nonvacuous : prob_vec [/2; /2] /\ expect (fun x => x) [/2; /2] [1; 3] = 2 /\
  expect (fun x => (x - 2) * (x - 2)) [/2; /2] [1; 3] = 1 /\ cov [/2; /2] [1; 3] [3; 1] = -1.
Proof.
  split; [split; [simpl; intros x [<-|[<-|[]]]; lra|unfold Rsum; simpl; lra]|].
  unfold cov, expect2, expect, Rsum; simpl; repeat split; lra.
Qed.
