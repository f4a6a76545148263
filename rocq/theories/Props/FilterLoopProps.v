(** Properties C24-C26 (pyfilter/filters/base.py: the filtering loop). *)
From Coq Require Import Reals List Bool Arith Lia Lra String.
From Verif.Model Require Import Base Xf Tensor Weights Particle FilterLoop.
From Verif.Spec Require Import WeightsSpec ParticleSpec LoopSpec.
From Verif.Proofs Require Import WeightsProofs MomentsProofs ResamplingProofs ParticleProofs StepProofs LoopProofs GenealogyWitness.
From Verif.Props Require Import GenealogyProps.
Import ListNotations.
Local Open Scope nat_scope.

Lemma missing_spec y : missing y = true <-> forall v, In v y -> v = NaN.
Proof.
  unfold missing. rewrite forallb_forall. split; intros H v Hv; specialize (H v Hv).
  - destruct v; try discriminate. reflexivity.
  - now rewrite H.
Qed.

(** * C24 *)

(** [s']: the state reached after the unobserved steps of the interval (for observe_every_step 1, [s] itself). *)
Theorem C24_missing_observation : forall X lowest (o : @oracle X (list xf)) k cf n b fuel r y s c r' l,
  0 < n -> well_behaved o n -> state_ok n b s -> observe_every cf <> 0 ->
  (forall v, In v y -> v = NaN) ->
  filter_step lowest o k cf fuel r y s = Some (Ok (c, r', l)) ->
  exists skipped s' r1 r2 p, travels lowest o k (observe_every cf) s skipped s' /\
    l = (if record_intermediary cf then skipped else []) ++ [c] /\
    predict lowest o k r1 s' = Ok p /\
    c_x c = propagate o r2 (p_x p) /\
    (forall j, c_ll c j = Fin 0) /\
    (forall j, j < b -> col (c_w c) j = col (p_w p) j) /\
    c_inds c = p_inds p.
Proof.
  intros X lowest o k cf n b fuel r y s c r' l Hn Ho Hs Hk Hy E. apply missing_spec in Hy.
  destruct (step_inv lowest o k cf n b Hn Ho fuel r y s c r' l Hs E) as (sk & s' & r1 & r2 & p & El & Htr & Hs' & Ep & Hp & Ec).
  rewrite Hy in Ec. destruct Ho as (_ & Hpr & _).
  destruct (create_state_spec lowest o r2 n b p Hn Hp (Hpr r2)) as (c' & Ec' & _ & Hx & Hi & Hll & Hw).
  rewrite Ec in Ec'. injection Ec' as <-. exists sk, s', r1, r2, p. tauto.
Qed.
Print Assumptions C24_missing_observation.

(** An observation with at least one number is used. *)
Theorem C24_partially_missing_used : forall X lowest (o : @oracle X (list xf)) k cf n b fuel r y s c r' l,
  0 < n -> well_behaved o n -> state_ok n b s -> observe_every cf <> 0 ->
  (exists v, In v y /\ v <> NaN) ->
  filter_step lowest o k cf fuel r y s = Some (Ok (c, r', l)) ->
  exists skipped s', travels lowest o k (observe_every cf) s skipped s' /\
    l = (if record_intermediary cf then skipped else []) ++ [c] /\ corrects lowest o k y s' c.
Proof.
  intros X lowest o k cf n b fuel r y s c r' l Hn Ho Hs Hk (v & Hv & Hnan) E.
  assert (Hm : missing y = false).
  { destruct (missing y) eqn:Em; [|reflexivity]. destruct Hnan. now apply (proj1 (missing_spec y) Em). }
  destruct (step_inv lowest o k cf n b Hn Ho fuel r y s c r' l Hs E) as (sk & s' & r1 & r2 & p & El & Htr & Hs' & Ep & Hp & Ec).
  rewrite Hm in Ec. exists sk, s'. split; [exact Htr|]. split; [exact El|]. exists r1, r2, p. tauto.
Qed.
Print Assumptions C24_partially_missing_used.

(** When every step is observed the step succeeds, whatever the proposal does with time. *)
Theorem C24_step_succeeds : forall X lowest (o : @oracle X (list xf)) k rec strategy n b fuel r y s,
  0 < n -> well_behaved o n -> state_ok n b s ->
  exists c r', filter_step lowest o k (FConf 1 rec strategy) (S fuel) r y s = Some (Ok (c, r', [c])) /\ state_ok n b c.
Proof.
  intros X lowest o k rec strategy n b fuel r y s Hn (Hres & Hpr & Hsa & Hpw) Hs. unfold filter_step.
  destruct (predict_ok lowest o k r n b s Hn Hs (Hres r true)) as (p & Ep & Hp & Et). rewrite Ep.
  cbn [advance observe_every Nat.eqb]. rewrite Nat.mod_1_r. cbn [Nat.eqb].
  assert (exists c, (if missing y then create_state lowest o (S r) p else correct lowest o k (S r) y p) = Ok c /\ state_ok n b c) as (c & -> & Hc).
  { destruct (missing y).
    - destruct (create_state_spec lowest o (S r) n b p Hn Hp (Hpr _)) as (c & Ec & Hc & _). eauto.
    - apply (correct_ok lowest o k (S r) y n b p Hn Hp (Hsa _) Hpw (Hres _ _)). }
  exists c, (S (S r)). split; [|exact Hc]. cbn [record_intermediary]. now destruct rec.
Qed.
Print Assumptions C24_step_succeeds.

Example C24_nonvacuous : forall lowest, exists s, state_ok 2 1 s /\ well_behaved wit 2 /\
  (forall v, In v [NaN; NaN] -> v = NaN) /\ (exists v, In v [NaN; Fin 1] /\ v <> NaN) /\
  initialize lowest 2 1 wit_x0 = Ok s.
Proof.
  intros lowest. destruct (initialize_ok lowest 2 1 wit_x0 ltac:(lia) ltac:(now split)) as (s0 & E & Hs & Hx & _).
  exists s0. split; [exact Hs|]. split; [exact wit_well|]. split; [|split; [|exact E]].
  - intros v [<-|[<-|[]]]; reflexivity.
  - exists (Fin 1). split; [right; now left|discriminate].
Qed.

(** * C25 *)

(** Both strategies are accepted, and they never differ on any run. *)
Theorem C25_impute_honoured_refuted : forall X lowest (o : @oracle X (list xf)) k every rec,
  exists skip impute, make_conf every rec "skip" = Ok skip /\ make_conf every rec "impute" = Ok impute /\
    nan_strategy skip <> nan_strategy impute /\
    forall fuel ys r s, batch_filter lowest o k impute fuel r ys s = batch_filter lowest o k skip fuel r ys s.
Proof.
  intros X lowest o k every rec. exists (FConf every rec "skip"), (FConf every rec "impute").
  split; [reflexivity|]. split; [reflexivity|]. split; [discriminate|].
  assert (Ha : forall fuel r p, advance lowest o k (FConf every rec "impute") fuel r p = advance lowest o k (FConf every rec "skip") fuel r p).
  { induction fuel as [|fuel IH]; intros r p; cbn [advance observe_every]; [reflexivity|].
    destruct (every =? 0); [reflexivity|]. destruct (ts_time (p_x p) mod every =? 0); [reflexivity|].
    destruct (create_state lowest o r p) as [c|]; [|reflexivity]. destruct (predict lowest o k (S r) c); [|reflexivity]. now rewrite IH. }
  intros fuel ys. induction ys as [|y ys IH]; intros r s; cbn [batch_filter]; [reflexivity|].
  assert (Es : filter_step lowest o k (FConf every rec "impute") fuel r y s = filter_step lowest o k (FConf every rec "skip") fuel r y s).
  { unfold filter_step. destruct (predict lowest o k r s) as [p|e]; [rewrite Ha|]; reflexivity. }
  rewrite Es. destruct (filter_step _ _ _ _ _ _ _ _) as [[[[c r'] l]|]|]; reflexivity.
Qed.
Print Assumptions C25_impute_honoured_refuted.

(** Other names are refused. *)
Theorem C25_unknown_strategy_refused : forall every rec strategy, strategy <> "skip"%string -> strategy <> "impute"%string ->
  make_conf every rec strategy = Raise NotImplementedError.
Proof.
  intros every rec strategy H1 H2. unfold make_conf.
  destruct (String.eqb_spec strategy "skip"); [contradiction|]. destruct (String.eqb_spec strategy "impute"); [contradiction|]. reflexivity.
Qed.
Print Assumptions C25_unknown_strategy_refused.

Example C25_nonvacuous : exists c, make_conf 3 true "impute" = Ok c /\ nan_strategy c = "impute"%string.
Proof. eexists. split; reflexivity. Qed.

(** * C26 *)

(** One observation: terminates, moves to the next multiple of the interval, uses the observation exactly once, last. *)
Theorem C26_one_observation : forall X lowest (o : @oracle X (list xf)) k cf n b fuel r y s,
  0 < n -> well_behaved o n -> clock o -> observe_every cf <> 0 -> observe_every cf <= fuel -> state_ok n b s ->
  exists c r' skipped s', filter_step lowest o k cf fuel r y s =
      Some (Ok (c, r', (if record_intermediary cf then skipped else []) ++ [c])) /\
    travels lowest o k (observe_every cf) s skipped s' /\
    (if missing y then moves lowest o k s' c else corrects lowest o k y s' c) /\
    map (fun c => ts_time (c_x c)) (skipped ++ [c]) = seq (S (ts_time (c_x s))) (S (List.length skipped)) /\
    (forall c j, In c skipped -> c_ll c j = Fin 0).
Proof.
  intros X lowest o k cf n b fuel r y s Hn Ho Hc Hk Hf Hs.
  destruct (step_spec lowest o k cf n b Hn Ho Hk Hc fuel r y s Hf Hs) as (c & r' & l & s' & E & Htr & _ & _ & Hm & _ & _ & _ & Ht & Hz).
  exists c, r', l, s'. split; [exact E|]. split; [exact Htr|]. split; [exact Hm|]. split; [exact Ht|]. intros c' j H. now apply Hz.
Qed.
Print Assumptions C26_one_observation.

(** A series: the times of the states held by the result, and the time of the last one. *)
Theorem C26_series : forall X lowest (o : @oracle X (list xf)) k cf n b fuel r y ys s,
  0 < n -> well_behaved o n -> clock o -> observe_every cf <> 0 -> observe_every cf <= fuel -> state_ok n b s ->
  ts_time (c_x s) = 0 ->
  let num := List.length (y :: ys) in
  exists c r' l, batch_filter lowest o k cf fuel r (y :: ys) s = Some (Ok (c, r', l)) /\
    ts_time (c_x c) = (num - 1) * observe_every cf + 1 /\
    List.length (s :: l) = (if record_intermediary cf then (num - 1) * observe_every cf + 2 else num + 1) /\
    map (fun c => ts_time (c_x c)) (s :: l) =
      if record_intermediary cf then seq 0 ((num - 1) * observe_every cf + 2)
      else 0 :: map (fun i => i * observe_every cf + 1) (seq 0 num).
Proof.
  intros X lowest o k cf n b fuel r y ys s Hn Ho Hc Hk Hf Hs Ht num.
  destruct (batch_spec lowest o k cf n b Hn Ho Hk Hc y ys fuel r s Hf Hs Ht) as (c & r' & l & E & _ & Htc & Hts).
  exists c, r', l. split; [exact E|]. unfold num. cbn [List.length]. rewrite Nat.sub_succ, Nat.sub_0_r. split; [exact Htc|].
  assert (Hl : List.length l = if record_intermediary cf then List.length ys * observe_every cf + 1 else S (List.length ys)).
  { rewrite <- (map_length (fun c => ts_time (c_x c)) l), Hts. destruct (record_intermediary cf); now rewrite ?map_length, seq_length. }
  split.
  - cbn [List.length]. rewrite Hl. destruct (record_intermediary cf); lia.
  - cbn [map]. rewrite Ht, Hts. destruct (record_intermediary cf); [|reflexivity].
    replace (List.length ys * observe_every cf + 2) with (S (List.length ys * observe_every cf + 1)) by lia. reflexivity.
Qed.
Print Assumptions C26_series.

Example C26_nonvacuous : forall lowest, exists s, state_ok 2 1 s /\ well_behaved wit 2 /\ clock wit /\ ts_time (c_x s) = 0 /\
  initialize lowest 2 1 wit_x0 = Ok s /\ exists cf, make_conf 3 true "skip" = Ok cf /\ observe_every cf = 3.
Proof.
  intros lowest. destruct (initialize_ok lowest 2 1 wit_x0 ltac:(lia) ltac:(now split)) as (s0 & E & Hs & Hx & _).
  exists s0. split; [exact Hs|]. split; [exact wit_well|]. split; [exact wit_clock|]. split; [now rewrite Hx|]. split; [exact E|].
  eexists. split; reflexivity.
Qed.
