(** Properties C22 and C23 (pyfilter/filters/particle/base.py: _do_sample_fl). *)
From Coq Require Import Reals List Bool Arith Lia Lra.
From Verif.Model Require Import Base Xf Tensor Weights Particle FilterLoop Smoothing.
From Verif.Spec Require Import WeightsSpec ParticleSpec GenealogySpec LoopSpec.
From Verif.Proofs Require Import WeightsProofs MomentsProofs ResamplingProofs ParticleProofs StepProofs LoopProofs GenealogyProofs.
From Verif.Proofs Require Import GenealogyWitness.
Import ListNotations.
Local Open Scope nat_scope.

(** The claim for one kind of filter: running the filter on particles that remember their past, the smoother applied to
    the plain run returns these pasts. *)
Definition fl_follows_ancestors {V} (d : V) (lowest : R) (o : oracle) (k : kind) (n b : nat) (cf : fconf) (fuel r : nat)
  (ys : list (list xf)) (s0 : corr V) : Prop :=
  forall c r' l, batch_filter lowest o k cf fuel r ys s0 = Some (Ok (c, r', l)) ->
  exists cp lp out, batch_filter lowest (with_past d o) k cf fuel r ys (newborn s0) = Some (Ok (cp, r', lp)) /\
    c = now_state d cp /\ l = map (now_state d) lp /\
    do_sample_fl n b (s0 :: l) = Ok out /\ lists_pasts n b out cp.

(** * C22 *)

Theorem C22_apf_fl_ancestors : forall V (d : V) lowest o n b cf fuel r ys (s0 : corr V),
  0 < n -> well_behaved o n -> record_intermediary cf = true -> state_ok n b s0 ->
  fl_follows_ancestors d lowest o APF n b cf fuel r ys s0.
Proof.
  intros V d lowest o n b cf fuel r ys s0 Hn (Hres & Hpr & Hsa & Hpw) Hrec Hs0 c r' l Eb.
  destruct (fl_run d lowest o Hpr Hsa Hpw APF n b cf fuel r ys s0 c r' l Hn Hres Hrec Hs0 Eb) as (cp & lp & E & -> & -> & H).
  destruct H as (out & Eo & Ho); [intros; exact I|]. exists cp, lp, out. tauto.
Qed.
Print Assumptions C22_apf_fl_ancestors.

(** Recording of the intermediary states is not needed when every step is observed. *)
Lemma step_recording V lowest (o : @oracle V (list xf)) k fuel r y s strategy rec :
  filter_step lowest o k (FConf 1 rec strategy) fuel r y s = filter_step lowest o k (FConf 1 true strategy) fuel r y s.
Proof.
  unfold filter_step. destruct (predict lowest o k r s) as [p|]; [|reflexivity].
  destruct fuel as [|fuel]; [reflexivity|]. cbn [advance observe_every Nat.eqb]. rewrite Nat.mod_1_r. cbn [Nat.eqb].
  destruct (if missing y then _ else _); [|reflexivity]. cbn [record_intermediary]. now destruct rec.
Qed.
Lemma batch_recording V lowest (o : @oracle V (list xf)) k fuel ys strategy rec : forall r s,
  batch_filter lowest o k (FConf 1 rec strategy) fuel r ys s = batch_filter lowest o k (FConf 1 true strategy) fuel r ys s.
Proof.
  induction ys as [|y ys IH]; intros r s; cbn [batch_filter]; [reflexivity|]. rewrite step_recording.
  destruct (filter_step _ _ _ _ _ _ _ _) as [[[[c r'] l]|]|]; try reflexivity. now rewrite IH.
Qed.

(** Default settings: every step observed, intermediary states not recorded. *)
Theorem C22_apf_fl_ancestors_default : forall V (d : V) lowest o n b strategy rec fuel r ys (s0 : corr V),
  0 < n -> well_behaved o n -> state_ok n b s0 ->
  fl_follows_ancestors d lowest o APF n b (FConf 1 rec strategy) fuel r ys s0.
Proof.
  intros V d lowest o n b strategy rec fuel r ys s0 Hn Ho Hs0 c r' l Eb. rewrite batch_recording in *.
  exact (C22_apf_fl_ancestors V d lowest o n b (FConf 1 true strategy) fuel r ys s0 Hn Ho eq_refl Hs0 c r' l Eb).
Qed.
Print Assumptions C22_apf_fl_ancestors_default.

Lemma wit_well : well_behaved wit 2.
Proof. split; [intros; apply wit_res; lia|]. split; [exact wit_prop|]. split; [exact wit_samp|exact wit_pre]. Qed.
Lemma wit_clock : clock wit. Proof. split; reflexivity. Qed.

Example C22_nonvacuous : forall lowest, well_behaved wit 2 /\ record_intermediary wit_cf = true /\
  exists s0, initialize lowest 2 1 wit_x0 = Ok s0 /\ state_ok 2 1 s0 /\
  exists c r l, batch_filter lowest wit APF wit_cf 1 0 [wit_y; [NaN]; wit_y] s0 = Some (Ok (c, r, l)).
Proof.
  intros lowest. split; [exact wit_well|]. split; [reflexivity|].
  destruct (initialize_ok lowest 2 1 wit_x0 ltac:(lia) ltac:(now split)) as (s0 & E & Hs & Hx & _).
  exists s0. split; [exact E|]. split; [exact Hs|].
  destruct (batch_spec lowest wit APF wit_cf 2 1 ltac:(lia) wit_well ltac:(discriminate) wit_clock wit_y [[NaN]; wit_y] 1 0 s0) as (c & r & l & H & _);
    [cbn; lia|exact Hs|now rewrite Hx|]. eauto.
Qed.

(** * C23 *)

(** Proved for runs in which each recorded state is either resampled at the next step or has recorded every particle as
    its own parent; missing: runs in which a step that resamples is followed by one that does not, where the claim
    fails. *)
Theorem C23_sisr_fl_ancestors_partial : forall V (d : V) lowest o thr n b cf fuel r ys (s0 : corr V),
  0 < n -> well_behaved o n -> record_intermediary cf = true -> state_ok n b s0 ->
  (forall c r' l, batch_filter lowest o (SISR thr) cf fuel r ys s0 = Some (Ok (c, r', l)) ->
     forall s, In s (s0 :: l) -> forall j, j < b ->
       (ess_of (imp lowest (col (c_w s) j)) < thr)%R \/ forall i, i < n -> m_get (c_inds s) i j = i) ->
  fl_follows_ancestors d lowest o (SISR thr) n b cf fuel r ys s0.
Proof.
  intros V d lowest o thr n b cf fuel r ys s0 Hn (Hres & Hpr & Hsa & Hpw) Hrec Hs0 Hcond c r' l Eb.
  destruct (fl_run d lowest o Hpr Hsa Hpw (SISR thr) n b cf fuel r ys s0 c r' l Hn Hres Hrec Hs0 Eb) as (cp & lp & E & Ec & El & H).
  destruct H as (out & Eo & Ho).
  - intros s [<-|Hs] j Hj; [exact (Hcond c r' l Eb s0 (or_introl eq_refl) j Hj)|].
    apply (Hcond c r' l Eb (now_state d s)); [|exact Hj]. right. rewrite El. now apply in_map.
  - exists cp, lp, out. tauto.
Qed.
Print Assumptions C23_sisr_fl_ancestors_partial.

(** In particular with a threshold above the number of particles (resampling at every step). *)
Theorem C23_sisr_always_resampling_partial : forall V (d : V) lowest o thr n b cf fuel r y ys (s0 : corr V),
  0 < n -> well_behaved o n -> clock o -> record_intermediary cf = true -> state_ok n b s0 -> ts_time (c_x s0) = 0 ->
  observe_every cf <> 0 -> observe_every cf <= fuel -> (INR n < thr)%R ->
  exists c r' l, batch_filter lowest o (SISR thr) cf fuel r (y :: ys) s0 = Some (Ok (c, r', l)) /\
    fl_follows_ancestors d lowest o (SISR thr) n b cf fuel r (y :: ys) s0.
Proof.
  intros V d lowest o thr n b cf fuel r y ys s0 Hn Ho Hc Hrec Hs0 Ht Hk Hf Hthr.
  destruct (batch_spec lowest o (SISR thr) cf n b Hn Ho Hk Hc y ys fuel r s0 Hf Hs0 Ht) as (c & r' & l & E & _).
  exists c, r', l. split; [exact E|].
  apply C23_sisr_fl_ancestors_partial; try assumption.
  intros c0 r0 l0 E0 s Hs j Hj. left.
  assert (Hok : state_ok n b s).
  { destruct Hs as [<-|Hs]; [exact Hs0|]. exact (batch_states_ok lowest o (SISR thr) cf n b Hn Ho Hk Hc _ _ _ _ _ _ _ Hf Hs0 E0 s Hs). }
  pose proof (W_prob lowest n b s j Hn Hok Hj) as Hp. pose proof (ess_bounds _ Hp) as (Hb & _). cbn zeta in Hb.
  unfold W in Hb. fold (ess_of (imp lowest (col (c_w s) j))) in Hb.
  assert (El : length (imp lowest (col (c_w s) j)) = n).
  { unfold imp. rewrite map_length, length_col. exact (proj1 (so_w _ _ _ Hok)). }
  rewrite El in Hb. lra.
Qed.
Print Assumptions C23_sisr_always_resampling_partial.

Example C23_nonvacuous : forall lowest, exists s0, initialize lowest 2 1 wit_x0 = Ok s0 /\ state_ok 2 1 s0 /\ ts_time (c_x s0) = 0 /\
  well_behaved wit 2 /\ clock wit /\ (INR 2 < 3)%R.
Proof.
  intros lowest. destruct (initialize_ok lowest 2 1 wit_x0 ltac:(lia) ltac:(now split)) as (s0 & E & Hs & Hx & _).
  exists s0. split; [exact E|]. split; [exact Hs|]. split; [now rewrite Hx|]. split; [exact wit_well|]. split; [exact wit_clock|]. simpl; lra.
Qed.

(** The claim for SISR as stated is false. *)
Theorem C23_sisr_fl_ancestors_refuted : forall lowest,
  exists s0, initialize lowest 2 1 wit_x0 = Ok s0 /\ well_behaved wit 2 /\ clock wit /\
    ~ fl_follows_ancestors 0 lowest wit (SISR (3 / 2)) 2 1 wit_cf 1 0 [wit_y; wit_y; wit_y] s0.
Proof.
  intros lowest. destruct (fl_wrong lowest) as (s0 & c & r & l & cp & lp & out & E0 & Eb & Ebp & Eo & Hbad).
  exists s0. split; [exact E0|]. split; [exact wit_well|]. split; [exact wit_clock|].
  intros H. destruct (H c r l Eb) as (cp' & lp' & out' & Eb' & _ & _ & Eo' & Hgood).
  rewrite Ebp in Eb'. injection Eb' as <- <-. rewrite Eo in Eo'. injection Eo' as <-. now apply Hbad.
Qed.
Print Assumptions C23_sisr_fl_ancestors_refuted.
