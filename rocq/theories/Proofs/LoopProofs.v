(** The filtering loop. *)
From Coq Require Import Reals List Bool Arith Lia Lra.
From Verif.Model Require Import Base Xf Tensor Weights Particle FilterLoop.
From Verif.Spec Require Import WeightsSpec ParticleSpec LoopSpec.
From Verif.Proofs Require Import WeightsProofs MomentsProofs ResamplingProofs ParticleProofs StepProofs.
Import ListNotations.
Local Open Scope nat_scope.

Section Loop.
  Context {X : Type}.
  Variable lowest : R.
  Variable o : @oracle X (list xf).
  Variable k : kind.
  Variable cf : fconf.
  Variable n b : nat.
  Hypothesis Hn : 0 < n.
  Hypothesis Ho : well_behaved o n.
  Hypothesis Hk : observe_every cf <> 0.

  Let every := observe_every cf.

  (** Whatever the clock does: the predictions reached by the loop. *)
  Lemma advance_inv fuel : forall r r0 p s q r2 l, state_ok n b s -> predict lowest o k r0 s = Ok p -> pred_ok lowest n b p ->
    ts_time (p_x p) = ts_time (c_x s) ->
    advance lowest o k cf fuel r p = Some (Ok (q, r2, l)) ->
    exists s' r1, travels lowest o k every s l s' /\ state_ok n b s' /\ predict lowest o k r1 s' = Ok q /\ pred_ok lowest n b q.
  Proof.
    induction fuel as [|fuel IH]; intros r r0 p s q r2 l Hs Ep Hp Et E; cbn [advance] in E; [discriminate|].
    destruct (observe_every cf =? 0); [discriminate|]. fold every in E.
    destruct (Nat.eqb_spec (ts_time (p_x p) mod every) 0) as [Hz|Hz].
    - injection E as <- <- <-. exists s, r0. split; [constructor; congruence|]. split; [exact Hs|]. now split.
    - destruct Ho as (Hres & Hpr & Hsa & Hpw).
      destruct (create_state_spec lowest o r n b p Hn Hp (Hpr r)) as (c & Ec & Hc & _). rewrite Ec in E.
      destruct (predict_ok lowest o k (S r) n b c Hn Hc (Hres (S r) true)) as (p' & Ep' & Hp' & Et'). rewrite Ep' in E.
      destruct (advance lowest o k cf fuel (S (S r)) p') as [[[[q' r'] l']|]|] eqn:Ea; try discriminate. injection E as <- <- <-.
      destruct (IH _ _ _ _ _ _ _ Hc Ep' Hp' Et' Ea) as (s' & r1 & Htr & H). exists s', r1. split; [|exact H].
      econstructor; [congruence| |exact Htr]. exists r0, r, p. now split.
  Qed.

  Lemma step_inv fuel r y s c r' l : state_ok n b s -> filter_step lowest o k cf fuel r y s = Some (Ok (c, r', l)) ->
    exists l' s' r1 r2 p, l = (if record_intermediary cf then l' else []) ++ [c] /\ travels lowest o k every s l' s' /\
      state_ok n b s' /\ predict lowest o k r1 s' = Ok p /\ pred_ok lowest n b p /\
      (if missing y then create_state lowest o r2 p else correct lowest o k r2 y p) = Ok c.
  Proof.
    intros Hs E. unfold filter_step in E. pose proof Ho as (Hres & Hpr & Hsa & Hpw).
    destruct (predict_ok lowest o k r n b s Hn Hs (Hres r true)) as (p & Ep & Hp & Et). rewrite Ep in E.
    destruct (advance lowest o k cf fuel (S r) p) as [[[[q r2] l']|]|] eqn:Ea; try discriminate.
    destruct (advance_inv _ _ _ _ _ _ _ _ Hs Ep Hp Et Ea) as (s' & r1 & Htr & Hs' & Eq & Hq).
    destruct (if missing y then _ else _) as [c'|] eqn:Ec; [|discriminate]. injection E as <- <- <-.
    exists l', s', r1, r2, q. tauto.
  Qed.

  Hypothesis Hclock : clock o.

  Lemma correct_time r y p c : correct lowest o k r y p = Ok c -> ts_time (c_x c) = S (ts_time (p_x p)).
  Proof.
    destruct Hclock as [_ Hs]. intros E. destruct k as [thr| |]; cbn [correct] in E.
    - unfold sisr_correct in E. specialize (Hs r y (p_x p) (p_w p) (p_nw p)).
      destruct (sample_and_weight o r y _ _ _) as [x v]. cbn [fst] in Hs.
      destruct (loglik_mat _ _); [|discriminate]. cbn [bind] in E. unfold mk_corr in E.
      destruct (normalize_mat _ _) as [[? ?]|]; [|discriminate]. injection E as <-. exact Hs.
    - unfold apf_correct in E. destruct (resampler o r false _) as [i|]; [|discriminate]. cbn [bind] in E.
      destruct (batched_gather (ts_val (p_x p)) i) as [vals|]; [|discriminate]. cbn [bind] in E.
      match type of E with context [sample_and_weight o r y ?x ?w ?nw] => specialize (Hs r y x w nw) end.
      destruct (sample_and_weight o r y _ _ _) as [x v]. cbn [fst ts_time] in Hs.
      destruct (batched_gather _ _) as [gg|]; [|discriminate]. cbn [bind] in E.
      destruct (loglik_mat _ _); [|discriminate]. cbn [bind] in E. unfold mk_corr in E.
      destruct (normalize_mat _ _) as [[? ?]|]; [|discriminate]. injection E as <-. exact Hs.
    - unfold gpf_correct in E. specialize (Hs r y (p_x p) (p_w p) (p_nw p)).
      destruct (sample_and_weight o r y _ _ _) as [x v]. cbn [fst] in Hs.
      destruct (loglik_mat _ _); [|discriminate]. cbn [bind] in E. unfold mk_corr in E.
      destruct (normalize_mat _ _) as [[? ?]|]; [|discriminate]. injection E as <-. exact Hs.
  Qed.

  Lemma mod_up t : t mod every <> 0 -> S t <= (t / every + 1) * every.
  Proof. intros H. pose proof (Nat.div_mod t every Hk). pose proof (Nat.mod_upper_bound t every Hk). unfold every in *. nia. Qed.

  (** The loop reaches the next multiple of [every]; [m] bounds the distance. *)
  Lemma advance_travels m : forall fuel r p s, m < fuel -> state_ok n b s -> pred_ok lowest n b p ->
    predict lowest o k r s = Ok p ->
    ts_time (p_x p) = ts_time (c_x s) ->
    (every - ts_time (c_x s) mod every) mod every <= m ->
    exists q r1 r2 l s', advance lowest o k cf fuel (S r) p = Some (Ok (q, r2, l)) /\
      travels lowest o k every s l s' /\ state_ok n b s' /\ predict lowest o k r1 s' = Ok q /\
      pred_ok lowest n b q /\ ts_time (p_x q) = ts_time (c_x s') /\
      ts_time (c_x s') = ts_time (c_x s) + length l /\
      length l = (every - ts_time (c_x s) mod every) mod every /\
      map (fun c => ts_time (c_x c)) l = seq (S (ts_time (c_x s))) (length l) /\
      (forall c, In c l -> state_ok n b c /\ forall j, c_ll c j = Fin 0).
  Proof.
    induction m as [|m IH]; intros fuel r p s Hf Hs Hp Ep Et Hm; (destruct fuel as [|fuel]; [lia|]); cbn [advance];
      destruct (Nat.eqb_spec (observe_every cf) 0) as [E0|_]; try (exfalso; exact (Hk E0)); fold every; rewrite Et;
      pose proof (Nat.mod_upper_bound (ts_time (c_x s)) every Hk) as Hub.
    - assert (Hz : ts_time (c_x s) mod every = 0).
      { destruct (ts_time (c_x s) mod every) as [|z] eqn:Ez; [reflexivity|]. rewrite Nat.mod_small in Hm by (unfold every in *; lia). lia. }
      rewrite Hz, Nat.eqb_refl. exists p, r, (S r), [], s. split; [reflexivity|].
      split; [now constructor|]. split; [exact Hs|]. split; [exact Ep|]. split; [exact Hp|]. split; [exact Et|]. cbn [length].
      split; [lia|]. rewrite Nat.sub_0_r, Nat.mod_same by exact Hk. split; [reflexivity|]. split; [reflexivity|]. intros c [].
    - destruct (Nat.eqb_spec (ts_time (c_x s) mod every) 0) as [Hz|Hz].
      { exists p, r, (S r), [], s. split; [reflexivity|].
        split; [now constructor|]. split; [exact Hs|]. split; [exact Ep|]. split; [exact Hp|]. split; [exact Et|]. cbn [length].
        split; [lia|]. rewrite Hz, Nat.sub_0_r, Nat.mod_same by exact Hk. split; [reflexivity|]. split; [reflexivity|]. intros c []. }
      destruct Ho as (Hres & Hpr & Hsa & Hpw).
      destruct (create_state_spec lowest o (S r) n b p Hn Hp (Hpr (S r))) as (c & Ec & Hc & Hcx & _ & Hll & _).
      rewrite Ec.
      destruct (predict_ok lowest o k (S (S r)) n b c Hn Hc (Hres (S (S r)) true)) as (p' & Ep' & Hp' & Et'). rewrite Ep'.
      assert (Htc : ts_time (c_x c) = S (ts_time (c_x s))).
      { rewrite Hcx. destruct Hclock as [Hc1 _]. rewrite Hc1, Et. reflexivity. }
      assert (Hdist : (every - ts_time (c_x c) mod every) mod every = (every - ts_time (c_x s) mod every) mod every - 1).
      { rewrite Htc. set (t := ts_time (c_x s)) in *. set (q := every) in *.
        rewrite (Nat.mod_small (q - t mod q)) by lia.
        destruct (Nat.eq_dec (S (t mod q)) q) as [Eq|Nq].
        - assert (E1 : S t mod q = 0).
          { rewrite <- Nat.add_1_r. rewrite <- Nat.add_mod_idemp_l by exact Hk. rewrite Nat.add_1_r, Eq. apply Nat.mod_same, Hk. }
          rewrite E1, Nat.sub_0_r, Nat.mod_same by exact Hk. lia.
        - assert (E1 : S t mod q = S (t mod q)).
          { rewrite <- Nat.add_1_r. rewrite <- Nat.add_mod_idemp_l by exact Hk. rewrite Nat.mod_small by lia. lia. }
          rewrite E1. rewrite Nat.mod_small by lia. lia. }
      rewrite (Nat.mod_small (every - _)) in Hm, Hdist by (unfold every in *; lia).
      destruct (IH fuel (S (S r)) p' c) as (q & r1 & r2 & l & s' & Ea & Htr & Hs' & Eq & Hq & Etq & Ets & Hlen & Htimes & Hall);
        try assumption; [lia|rewrite Hdist; lia|].
      rewrite Ea. exists q, r1, r2, (c :: l), s'. split; [reflexivity|].
      split. { econstructor; [exact Hz| |exact Htr]. exists r, (S r), p. now split. }
      split; [exact Hs'|]. split; [exact Eq|]. split; [exact Hq|]. split; [exact Etq|]. cbn [length].
      split; [lia|].
      rewrite (Nat.mod_small (every - _)) by (unfold every in *; lia).
      split; [rewrite Hlen, Hdist; lia|].
      split; [cbn [map seq]; rewrite Htimes, Htc; reflexivity|].
      intros c' [<-|Hin]; [now split|now apply Hall].
  Qed.

  Definition ahead t := (every - t mod every) mod every.

  Lemma step_spec fuel r y s : every <= fuel -> state_ok n b s ->
    exists c r' l s', filter_step lowest o k cf fuel r y s =
        Some (Ok (c, r', (if record_intermediary cf then l else []) ++ [c])) /\
      travels lowest o k every s l s' /\ state_ok n b s' /\ state_ok n b c /\
      (if missing y then moves lowest o k s' c else corrects lowest o k y s' c) /\
      ts_time (c_x c) = S (ts_time (c_x s')) /\ ts_time (c_x s') = ts_time (c_x s) + ahead (ts_time (c_x s)) /\
      length l = ahead (ts_time (c_x s)) /\
      map (fun c => ts_time (c_x c)) (l ++ [c]) = seq (S (ts_time (c_x s))) (S (length l)) /\
      (forall c, In c l -> state_ok n b c /\ forall j, c_ll c j = Fin 0).
  Proof.
    intros Hf Hs. unfold filter_step. pose proof Ho as (Hres & Hpr & Hsa & Hpw).
    destruct (predict_ok lowest o k r n b s Hn Hs (Hres r true)) as (p & Ep & Hp & Et). rewrite Ep.
    destruct (advance_travels (every - 1) fuel r p s) as (q & r1 & r2 & l & s' & Ea & Htr & Hs' & Eq & Hq & Etq & Ets & Hlen & Htimes & Hall);
      try assumption.
    - unfold every in *. lia.
    - pose proof (Nat.mod_upper_bound (every - ts_time (c_x s) mod every) every Hk). unfold every in *. lia.
    - rewrite Ea. destruct (missing y).
      + destruct (create_state_spec lowest o r2 n b q Hn Hq (Hpr r2)) as (c & Ec & Hc & Hcx & _). rewrite Ec.
        assert (Hct : ts_time (c_x c) = S (ts_time (c_x s'))).
        { rewrite Hcx. destruct Hclock as [Hc1 _]. now rewrite Hc1, Etq. }
        exists c, (S r2), l, s'. split; [reflexivity|]. split; [exact Htr|]. split; [exact Hs'|]. split; [exact Hc|].
        split; [exists r1, r2, q; now split|]. split; [exact Hct|]. unfold ahead. split; [lia|]. split; [exact Hlen|].
        split; [|exact Hall].
        rewrite map_app, seq_S, Htimes. cbn [map]. do 2 f_equal. rewrite Hct. lia.
      + destruct (correct_ok lowest o k r2 y n b q Hn Hq (Hsa r2) Hpw (Hres r2 false)) as (c & Ec & Hc). rewrite Ec.
        assert (Hct : ts_time (c_x c) = S (ts_time (c_x s'))).
        { rewrite (correct_time _ _ _ _ Ec). now rewrite Etq. }
        exists c, (S r2), l, s'. split; [reflexivity|]. split; [exact Htr|]. split; [exact Hs'|]. split; [exact Hc|].
        split; [exists r1, r2, q; now split|]. split; [exact Hct|]. unfold ahead. split; [lia|]. split; [exact Hlen|].
        split; [|exact Hall].
        rewrite map_app, seq_S, Htimes. cbn [map]. do 2 f_equal. rewrite Hct. lia.
  Qed.

  Lemma ahead_0 : ahead 0 = 0.
  Proof. unfold ahead. rewrite Nat.mod_0_l by exact Hk. rewrite Nat.sub_0_r. now apply Nat.mod_same. Qed.
  Lemma ahead_next q : ahead (q * every + 1) = every - 1.
  Proof.
    unfold ahead. rewrite Nat.add_comm, Nat.mod_add by exact Hk.
    destruct (Nat.eq_dec every 1) as [E|E].
    - rewrite E. reflexivity.
    - rewrite (Nat.mod_small 1) by (unfold every in *; lia). rewrite Nat.mod_small by (unfold every in *; lia). reflexivity.
  Qed.

  (** From a state at time [q * every + 1]. *)
  Lemma batch_from ys : forall fuel r s q, every <= fuel -> state_ok n b s -> ts_time (c_x s) = q * every + 1 ->
    exists c r' l, batch_filter lowest o k cf fuel r ys s = Some (Ok (c, r', l)) /\ state_ok n b c /\
      ts_time (c_x c) = (q + length ys) * every + 1 /\
      map (fun c => ts_time (c_x c)) l =
        if record_intermediary cf then seq (q * every + 2) (length ys * every)
        else map (fun i => (q + i) * every + 1) (seq 1 (length ys)).
  Proof.
    induction ys as [|y ys IH]; intros fuel r s q Hf Hs Ht; cbn [batch_filter length].
    - exists s, r, []. split; [reflexivity|]. split; [exact Hs|]. split; [rewrite Nat.add_0_r; exact Ht|].
      destruct (record_intermediary cf); reflexivity.
    - destruct (step_spec fuel r y s Hf Hs) as (c & r' & l & s' & Es & _ & _ & Hc & _ & Hct & Hst & Hlen & Htimes & _).
      rewrite Es. rewrite Ht, ahead_next in Hst, Hlen.
      assert (Hct' : ts_time (c_x c) = (q + 1) * every + 1) by (unfold every in *; lia).
      destruct (IH fuel r' c (q + 1) Hf Hc Hct') as (c' & r'' & l' & Eb & Hc' & Ht' & Htimes'). rewrite Eb.
      eexists c', r'', _. split; [reflexivity|]. split; [exact Hc'|]. split; [rewrite Ht'; f_equal; f_equal; lia|].
      rewrite map_app, Htimes'. destruct (record_intermediary cf).
      + rewrite Htimes, Hlen, Ht. replace (S (q * every + 1)) with (q * every + 2) by lia.
        replace ((q + 1) * every + 2) with (q * every + 2 + S (every - 1)) by (unfold every in *; lia).
        rewrite <- seq_app. f_equal. unfold every in *. lia.
      + cbn [app map seq]. rewrite Hct'. cbn [app]. f_equal.
        rewrite <- (seq_shift (length ys) 1), map_map. apply map_ext. intros i. f_equal. f_equal. lia.
  Qed.

  (** From the initial state. *)
  Lemma batch_spec y ys fuel r s : every <= fuel -> state_ok n b s -> ts_time (c_x s) = 0 ->
    exists c r' l, batch_filter lowest o k cf fuel r (y :: ys) s = Some (Ok (c, r', l)) /\ state_ok n b c /\
      ts_time (c_x c) = length ys * every + 1 /\
      map (fun c => ts_time (c_x c)) l =
        if record_intermediary cf then seq 1 (length ys * every + 1)
        else map (fun i => i * every + 1) (seq 0 (S (length ys))).
  Proof.
    intros Hf Hs Ht. cbn [batch_filter].
    destruct (step_spec fuel r y s Hf Hs) as (c & r' & l & s' & Es & _ & _ & Hc & _ & Hct & Hst & Hlen & Htimes & _).
    rewrite Es. rewrite Ht, ahead_0 in Hst, Hlen.
    destruct (batch_from ys fuel r' c 0 Hf Hc) as (c' & r'' & l' & Eb & Hc' & Ht' & Htimes'); [lia|]. rewrite Eb.
    eexists c', r'', _. split; [reflexivity|]. split; [exact Hc'|]. split; [exact Ht'|].
    rewrite map_app, Htimes'. destruct (record_intermediary cf).
    - rewrite Htimes, Hlen, Ht. change (0 * every + 2) with (1 + 1). rewrite <- seq_app. f_equal. lia.
    - cbn [app map seq]. rewrite Hct, Hst. cbn [app]. f_equal. 
  Qed.

  Lemma batch_states_ok ys : forall fuel r s c r' l, every <= fuel -> state_ok n b s ->
    batch_filter lowest o k cf fuel r ys s = Some (Ok (c, r', l)) -> forall s', In s' l -> state_ok n b s'.
  Proof.
    induction ys as [|y ys IH]; intros fuel r s c r' l Hf Hs E s' Hin; cbn [batch_filter] in E.
    - injection E as <- <- <-. destruct Hin.
    - destruct (step_spec fuel r y s Hf Hs) as (c1 & r1 & l1 & s1 & Es & _ & _ & Hc & _ & _ & _ & _ & _ & Hall).
      rewrite Es in E. destruct (batch_filter lowest o k cf fuel r1 ys c1) as [[[[c2 r2] l2]|]|] eqn:Eb; try discriminate.
      injection E as <- <- <-. apply in_app_iff in Hin. destruct Hin as [Hin|Hin].
      + apply in_app_iff in Hin. destruct Hin as [Hin|[<-|[]]]; [|exact Hc].
        destruct (record_intermediary cf); [now apply Hall|destruct Hin].
      + exact (IH fuel r1 c1 _ _ _ Hf Hc Eb s' Hin).
  Qed.
End Loop.
