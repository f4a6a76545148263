(** Filters on particles with a past, and the fixed-lag smoother. *)
From Coq Require Import Reals List Bool Arith Lia Lra FunctionalExtensionality.
From Verif.Model Require Import Base Xf Tensor Weights Particle FilterLoop Smoothing.
From Verif.Spec Require Import WeightsSpec ParticleSpec GenealogySpec.
From Verif.Proofs Require Import WeightsProofs MomentsProofs ResamplingProofs ParticleProofs StepProofs.
Import ListNotations.
Local Open Scope nat_scope.

Definition res_map {A B} (f : A -> B) (x : res A) : res B :=
  match x with Ok a => Ok (f a) | Raise e => Raise e end.

Lemma mat_ext {A} (m m' : mat A) : m_rows m = m_rows m' -> m_cols m = m_cols m' ->
  (forall i j, m_get m i j = m_get m' i j) -> m = m'.
Proof.
  destruct m as [r c g], m' as [r' c' g']; simpl. intros -> -> H. f_equal.
  apply functional_extensionality. intros i. apply functional_extensionality. intros j. apply H.
Qed.

Lemma scatter_map {A B} (f : A -> B) m mask src :
  masked_scatter (map_mat f m) mask (map_mat f src) = res_map (map_mat f) (masked_scatter m mask src).
Proof.
  unfold masked_scatter. cbn [map_mat m_rows m_cols].
  destruct (_ <? _); cbn [res_map]; [reflexivity|]. f_equal. apply mat_ext; [reflexivity|reflexivity|].
  intros i j. cbn [map_mat m_get]. now destruct (mask j).
Qed.

Lemma index_cols_map {A B} (f : A -> B) m idx mask :
  index_cols (map_mat f m) idx mask = res_map (map_mat f) (index_cols m idx mask).
Proof.
  unfold index_cols. cbn [map_mat m_rows m_cols]. destruct (_ || _)%bool; cbn [res_map]; reflexivity.
Qed.

Lemma gather_map {A B} (f : A -> B) m idx :
  batched_gather (map_mat f m) idx = res_map (map_mat f) (batched_gather m idx).
Proof.
  unfold batched_gather. cbn [map_mat m_rows m_cols]. destruct (_ || _)%bool; cbn [res_map]; reflexivity.
Qed.

Section Sim.
  Context {V : Type}.
  Variable d : V.
  Variable lowest : R.
  Variable o : @oracle V (list xf).
  Hypothesis Hprop : forall r, propagate_shape o r.
  Hypothesis Hsamp : forall r, proposal_shape o r.
  Hypothesis Hpre : preweight_shape o.

  Let oo := with_past d o.

  Lemma now_remember x x' : shaped (ts_val x') (m_rows (ts_val x)) (m_cols (ts_val x)) ->
    now_ts d (remember x x') = x'.
  Proof.
    intros [H1 H2]. destruct x' as [t v']. unfold now_ts, remember. cbn [ts_time ts_val] in *. f_equal.
    apply mat_ext; cbn [map_mat zip_mat m_rows m_cols m_get]; [congruence|congruence|].
    intros i j. unfold now. apply last_last.
  Qed.

  Lemma sim_predict k r s : predict lowest o k r (now_state d s) = res_map (now_pred d) (predict lowest oo k r s).
  Proof.
    destruct k as [thr| |]; unfold predict.
    - unfold sisr_predict. cbn [now_state c_w c_x c_inds oo with_past resampler now_ts ts_val ts_time].
      destruct (normalize_mat lowest (c_w s)) as [[nw w]|e]; [|reflexivity]. cbn [bind].
      destruct (negb _); [reflexivity|].
      destruct (resampler o r true _) as [sub|e]; [|reflexivity]. cbn [bind].
      destruct (masked_scatter (c_inds s) _ sub) as [inds|e]; [|reflexivity]. cbn [bind].
      rewrite index_cols_map. destruct (index_cols (ts_val (c_x s)) sub _) as [temp|e]; [|reflexivity]. cbn [bind res_map].
      rewrite scatter_map. destruct (masked_scatter (ts_val (c_x s)) _ temp) as [vals|e]; reflexivity.
    - unfold apf_predict. cbn [now_state c_w]. destruct (normalize_mat lowest (c_w s)) as [[nw w]|e]; reflexivity.
    - unfold gpf_predict. cbn [now_state c_w]. destruct (normalize_mat lowest (c_w s)) as [[nw w]|e]; reflexivity.
  Qed.

  Lemma sim_mk_corr x w ll inds :
    mk_corr lowest (now_ts d x) w ll inds = res_map (now_state d) (mk_corr lowest x w ll inds).
  Proof. unfold mk_corr. destruct (normalize_mat lowest w) as [[nw w']|e]; reflexivity. Qed.

  Lemma sim_create r p : create_state lowest o r (now_pred d p) = res_map (now_state d) (create_state lowest oo r p).
  Proof.
    unfold create_state. cbn [now_pred p_x p_w p_inds oo with_past propagate]. rewrite <- sim_mk_corr. f_equal.
    symmetry. apply now_remember. destruct (Hprop r (now_ts d (p_x p))) as [H1 H2]. now split.
  Qed.

  Lemma sim_correct k r y p : correct lowest o k r y (now_pred d p) = res_map (now_state d) (correct lowest oo k r y p).
  Proof.
    destruct k as [thr| |]; unfold correct.
    - unfold sisr_correct. cbn [now_pred p_x p_w p_nw p_inds oo with_past sample_and_weight].
      destruct (Hsamp r y (now_ts d (p_x p)) (p_w p) (p_nw p)) as [H1 H2].
      destruct (sample_and_weight o r y _ _ _) as [x v]. cbn [fst snd] in *.
      destruct (loglik_mat v _) as [ll|e]; [|reflexivity]. cbn [bind]. rewrite <- sim_mk_corr. f_equal.
      symmetry. now apply now_remember.
    - unfold apf_correct. cbn [now_pred p_x p_w p_nw p_inds oo with_past resampler sample_and_weight pre_weight now_ts ts_val ts_time].
      change (TS (ts_time (p_x p)) (map_mat (now d) (ts_val (p_x p)))) with (now_ts d (p_x p)).
      destruct (resampler o r false _) as [inds|e]; [|reflexivity]. cbn [bind]. rewrite gather_map.
      destruct (batched_gather (ts_val (p_x p)) inds) as [vals|e]; [|reflexivity]. cbn [bind res_map].
      set (g := pre_weight o y (now_ts d (p_x p))). set (z := map_mat (fun _ => Fin 0) g). set (u := map_mat _ z).
      destruct (Hsamp r y (TS (ts_time (p_x p)) (map_mat (now d) vals)) z u) as [H1 H2].
      destruct (sample_and_weight o r y _ z u) as [x v]. cbn [fst snd] in *.
      destruct (batched_gather g inds) as [gg|e]; [|reflexivity]. cbn [bind].
      destruct (loglik_mat _ None) as [ll|e]; [|reflexivity]. cbn [bind]. rewrite <- sim_mk_corr. f_equal.
      symmetry. now apply now_remember.
    - unfold gpf_correct. cbn [now_pred p_x p_w p_nw p_inds oo with_past sample_and_weight].
      destruct (Hsamp r y (now_ts d (p_x p)) (p_w p) (p_nw p)) as [H1 H2].
      destruct (sample_and_weight o r y _ _ _) as [x v]. cbn [fst snd] in *.
      destruct (loglik_mat v _) as [ll|e]; [|reflexivity]. cbn [bind]. rewrite <- sim_mk_corr. f_equal.
      symmetry. now apply now_remember.
  Qed.

  Definition lift_out {A B} (f : A -> B) (g : corr (list V) -> corr V) (x : option (res (A * nat * list (corr (list V)))))
    : option (res (B * nat * list (corr V))) :=
    match x with
    | None => None
    | Some (Raise e) => Some (Raise e)
    | Some (Ok (a, r, l)) => Some (Ok (f a, r, map g l))
    end.

  Lemma sim_advance k cf fuel : forall r p,
    advance lowest o k cf fuel r (now_pred d p) = lift_out (now_pred d) (now_state d) (advance lowest oo k cf fuel r p).
  Proof.
    induction fuel as [|fuel IH]; intros r p; [reflexivity|]. cbn [advance].
    destruct (observe_every cf =? 0); [reflexivity|]. cbn [now_pred p_x now_ts ts_time].
    destruct (_ mod _ =? 0); [reflexivity|].
    change (Pred (now_ts d (p_x p)) (p_w p) (p_nw p) (p_inds p)) with (now_pred d p).
    rewrite sim_create. destruct (create_state lowest oo r p) as [c|e]; [|reflexivity]. cbn [res_map].
    rewrite sim_predict. destruct (predict lowest oo k (S r) c) as [p'|e]; [|reflexivity]. cbn [res_map].
    rewrite IH. destruct (advance lowest oo k cf fuel (S (S r)) p') as [[[[q r'] l]|e]|]; reflexivity.
  Qed.

  Lemma sim_step k cf fuel r y s :
    filter_step lowest o k cf fuel r y (now_state d s) = lift_out (now_state d) (now_state d) (filter_step lowest oo k cf fuel r y s).
  Proof.
    unfold filter_step. rewrite sim_predict. destruct (predict lowest oo k r s) as [p|e]; [|reflexivity]. cbn [res_map].
    rewrite sim_advance. destruct (advance lowest oo k cf fuel (S r) p) as [[[[q r'] l]|e]|]; [|reflexivity|reflexivity].
    cbn [lift_out]. destruct (missing y).
    - rewrite sim_create. destruct (create_state lowest oo r' q) as [c|e]; [|reflexivity]. cbn [res_map lift_out].
      rewrite map_app. destruct (record_intermediary cf); reflexivity.
    - rewrite sim_correct. destruct (correct lowest oo k r' y q) as [c|e]; [|reflexivity]. cbn [res_map lift_out].
      rewrite map_app. destruct (record_intermediary cf); reflexivity.
  Qed.

  Lemma sim_batch k cf fuel ys : forall r s,
    batch_filter lowest o k cf fuel r ys (now_state d s) = lift_out (now_state d) (now_state d) (batch_filter lowest oo k cf fuel r ys s).
  Proof.
    induction ys as [|y ys IH]; intros r s; [reflexivity|]. cbn [batch_filter]. rewrite sim_step.
    destruct (filter_step lowest oo k cf fuel r y s) as [[[[c r'] l]|e]|]; [|reflexivity|reflexivity]. cbn [lift_out].
    rewrite IH. destruct (batch_filter lowest oo k cf fuel r' ys c) as [[[[c' r''] l']|e]|]; [|reflexivity|reflexivity].
    cbn [lift_out]. now rewrite map_app.
  Qed.

  Lemma now_newborn s : now_state d (newborn s) = s.
  Proof.
    destruct s as [[t v] w ll inds]. unfold now_state, newborn, now_ts. cbn [c_x c_w c_ll c_inds ts_time ts_val]. do 2 f_equal.
    apply mat_ext; reflexivity.
  Qed.

  (** Parents of the particles of [c] are the particles of [s] that [c]'s indices name. *)
  Definition linked (n b : nat) (s c : corr (list V)) : Prop :=
    forall i j, i < n -> j < b -> exists v,
      m_get (ts_val (c_x c)) i j = m_get (ts_val (c_x s)) (m_get (c_inds c) i j) j ++ [v].

  (** Newest first. *)
  Inductive lineage (n b : nat) : list (corr (list V)) -> Prop :=
  | lin_first s : state_ok n b s -> (forall i j, i < n -> j < b -> exists v, m_get (ts_val (c_x s)) i j = [v]) -> lineage n b [s]
  | lin_next s c rest : lineage n b (s :: rest) -> state_ok n b c -> linked n b s c -> lineage n b (c :: s :: rest).

  Lemma lineage_head n b s rest : lineage n b (s :: rest) -> state_ok n b s.
  Proof. inversion 1; assumption. Qed.

  Lemma fl_loop_lineage n b hs : lineage n b hs -> forall latest rest inds, hs = latest :: rest ->
    valid_selection n b inds ->
    exists l, fl_loop (now_state d latest) (map (now_state d) rest) inds = Ok l /\
      forall i j, i < n -> j < b ->
        m_get (ts_val (c_x latest)) (m_get inds i j) j =
        map (fun m => m_get m i j) (rev l) ++ [now d (m_get (ts_val (c_x latest)) (m_get inds i j) j)].
  Proof.
    induction 1 as [s Hs Hone|s c rest' Hlin IH Hc Hl]; intros latest rest inds E [[Hi1 Hi2] Hi3];
      injection E as <- <-.
    - exists []. split; [reflexivity|]. intros i j Hi Hj. cbn [map rev app].
      destruct (Hone (m_get inds i j) j) as [v ->]; [apply Hi3; lia|exact Hj|]. reflexivity.
    - cbn [map fl_loop]. pose proof Hc as [[Hx1 Hx2] _ _ [[Hc1 Hc2] Hc3]].
      destruct (batched_gather_spec (c_inds (now_state d c)) inds) as (inds' & -> & [A1 A2] & A3 & _);
        [cbn [now_state c_inds]; lia|cbn [now_state c_inds]; rewrite Hc1; exact Hi3|]. change (c_inds (now_state d c)) with (c_inds c) in A3. cbn [bind].
      assert (Hv' : valid_selection n b inds').
      { split; [split; congruence|]. intros i j H1 H2. rewrite A3. apply Hc3; [|lia]. rewrite Hc1. apply Hi3; lia. }
      pose proof (lineage_head _ _ _ _ Hlin) as [[Hs1 Hs2] _ _ _].
      destruct (batched_gather_spec (ts_val (c_x (now_state d s))) inds') as (vals & EV & [B1 B2] & B3 & _).
      { cbn [now_state c_x now_ts ts_val map_mat m_cols]. lia. }
      { cbn [now_state c_x now_ts ts_val map_mat m_rows]. rewrite Hs1. apply Hv'. }
      rewrite EV. cbn [bind].
      destruct (IH s rest' inds' eq_refl Hv') as (l & El & Hall). rewrite El. cbn [bind].
      exists (vals :: l). split; [reflexivity|]. intros i j Hi Hj. cbn [rev]. rewrite map_app. cbn [map].
      destruct (Hl (m_get inds i j) j) as [v Ev]; [apply Hi3; lia|exact Hj|].
      rewrite Ev. unfold now at 1. rewrite last_last. f_equal.
      specialize (Hall i j Hi Hj). rewrite A3 in Hall. rewrite Hall at 1. f_equal.
      rewrite B3, A3. reflexivity.
  Qed.

  Lemma fl_lineage n b latest rest : lineage n b (latest :: rest) ->
    exists out, do_sample_fl n b (map (now_state d) (rev (latest :: rest))) = Ok out /\ lists_pasts n b out latest.
  Proof.
    intros H. unfold do_sample_fl. rewrite <- map_rev, rev_involutive. cbn [map].
    destruct (fl_loop_lineage n b _ H latest rest (arange n b) eq_refl) as (l & El & Hall).
    { split; [now split|]. intros i j H1 H2. exact H1. }
    rewrite El. cbn [bind]. eexists. split; [reflexivity|]. intros i j Hi Hj. cbn [rev]. rewrite map_app. cbn [map].
    specialize (Hall i j Hi Hj). cbn [arange m_get] in Hall. rewrite Hall. f_equal.
  Qed.

  (** When the recorded indices name the parents. *)
  Definition tracks (n b : nat) (k : kind) (s : corr (list V)) : Prop :=
    match k with
    | SISR thr => forall j, j < b -> (ess_of (imp lowest (col (c_w s) j)) < thr)%R \/ forall i, i < n -> m_get (c_inds s) i j = i
    | APF => True
    | GPF => False
    end.

  Section Run.
    Variable k : kind.
    Variables n b : nat.
    Hypothesis Hn : 0 < n.
    Hypothesis Hres : forall r flag, resampler_ok o n r flag.

    Lemma oo_res r flag : resampler_ok oo n r flag.
    Proof. exact (Hres r flag). Qed.
    Lemma oo_prop r : propagate_shape oo r.
    Proof. intros x. now split. Qed.
    Lemma oo_samp r : proposal_shape oo r.
    Proof.
      intros y x w nw. split; [now split|]. cbn [oo with_past sample_and_weight snd].
      destruct (Hsamp r y (now_ts d x) w nw) as [_ [H1 H2]]. now split.
    Qed.
    Lemma oo_pre : preweight_shape oo.
    Proof. intros y x. destruct (Hpre y (now_ts d x)) as [H1 H2]. now split. Qed.

    Lemma predict_linked r s : state_ok n b s -> tracks n b k s ->
      exists p, predict lowest oo k r s = Ok p /\ pred_ok lowest n b p /\ ts_time (p_x p) = ts_time (c_x s) /\
        (forall i j, i < n -> j < b -> m_get (ts_val (p_x p)) i j = m_get (ts_val (c_x s)) (m_get (p_inds p) i j) j) /\
        (k = APF -> forall i j, m_get (p_inds p) i j = i).
    Proof.
      intros Hs Ht. destruct (predict_ok lowest oo k r n b s Hn Hs (oo_res r true)) as (p & Ep & Hp & Htime).
      exists p. split; [exact Ep|]. split; [exact Hp|]. split; [exact Htime|].
      destruct k as [thr| |]; [| |destruct Ht].
      - split; [|discriminate]. intros i j Hi Hj. cbn [predict] in Ep.
        destruct (sisr_predict_spec lowest oo thr r n b s Hn Hs (oo_res r true)) as (p' & Ep' & _ & [S1 S2] & _ & _ & [S3 S4] & L & U).
        rewrite Ep in Ep'. injection Ep' as <-.
        destruct (low lowest thr s j) eqn:El.
        + destruct L as [L|(nw & sel & _ & _ & [[V1 V2] V3] & A)]; [pose proof (rank_lt _ j b Hj El); lia|].
          destruct (A j Hj El) as (_ & A1 & _ & _ & A2).
          rewrite <- (nth_col (p_inds p) i j 0) by lia. rewrite A2.
          rewrite <- (nth_col (ts_val (p_x p)) i j (m_get (ts_val (c_x s)) 0 j)) by lia. rewrite A1.
          now rewrite (map_nth (fun a => m_get (ts_val (c_x s)) a j)).
        + destruct (U j Hj El) as (U1 & _ & _ & U2).
          destruct Hs as [[Hx1 Hx2] _ _ [[Hi1 Hi2] _]].
          rewrite (col_eq_get _ _ _ _ U1) by lia. rewrite (col_eq_get _ _ _ _ U2) by lia.
          destruct (Ht j Hj) as [Hlt|Hid].
          * exfalso. unfold low, W in El. destruct (Rlt_dec _ thr); [discriminate|contradiction].
          * now rewrite Hid.
      - cbn [predict] in Ep. unfold apf_predict in Ep. destruct (normalize_mat lowest (c_w s)) as [[nw w]|e]; [|discriminate].
        cbn [bind] in Ep. injection Ep as <-. cbn [p_x p_inds arange m_get]. now split.
    Qed.

    Lemma create_linked r s p c :
      (forall i j, i < n -> j < b -> m_get (ts_val (p_x p)) i j = m_get (ts_val (c_x s)) (m_get (p_inds p) i j) j) ->
      c_x c = propagate oo r (p_x p) -> c_inds c = p_inds p -> linked n b s c.
    Proof.
      intros Hp Hx Hi i j H1 H2. rewrite Hx, Hi. eexists. cbn [oo with_past propagate remember ts_val zip_mat m_get].
      rewrite Hp by assumption. reflexivity.
    Qed.

    Lemma correct_linked r y s p : pred_ok lowest n b p -> 
      (forall i j, i < n -> j < b -> m_get (ts_val (p_x p)) i j = m_get (ts_val (c_x s)) (m_get (p_inds p) i j) j) ->
      (k = APF -> forall i j, m_get (p_inds p) i j = i) -> k <> GPF ->
      exists c, correct lowest oo k r y p = Ok c /\ state_ok n b c /\ linked n b s c.
    Proof.
      intros Hp Hl Hid Hk. destruct (correct_ok lowest oo k r y n b p Hn Hp (oo_samp r) oo_pre (oo_res r false)) as (c & Ec & Hc).
      exists c. split; [exact Ec|]. split; [exact Hc|]. intros i j Hi Hj.
      destruct k as [thr| |]; [| |congruence]; cbn [correct] in Ec.
      - unfold sisr_correct in Ec. cbn [oo with_past sample_and_weight] in Ec.
        destruct (sample_and_weight o r y _ _ _) as [x v]. cbn [fst snd] in Ec.
        destruct (loglik_mat v _) as [ll|e]; [|discriminate]. cbn [bind] in Ec. unfold mk_corr in Ec.
        destruct (normalize_mat lowest _) as [[nw w']|e]; [|discriminate]. cbn [bind] in Ec. injection Ec as <-.
        cbn [c_x c_inds remember ts_val zip_mat m_get]. eexists. now rewrite Hl.
      - unfold apf_correct in Ec. cbn [oo with_past resampler sample_and_weight pre_weight] in Ec.
        set (g := pre_weight o y (now_ts d (p_x p))) in *.
        destruct (resampler o r false _) as [inds|e] eqn:Er; [|discriminate]. cbn [bind] in Ec.
        unfold batched_gather in Ec at 1.
        destruct (negb (m_cols inds <=? m_cols (ts_val (p_x p))) || negb (all_entries (fun q => q <? m_rows (ts_val (p_x p))) inds))%bool eqn:Eb; [discriminate|].
        cbn [bind ts_val ts_time] in Ec. apply orb_false_iff in Eb. destruct Eb as [_ Eb]. apply negb_false_iff in Eb. apply all_lt_true in Eb.
        destruct (sample_and_weight o r y _ _ _) as [x v]. cbn [fst snd] in Ec.
        destruct (batched_gather g inds) as [gg|e]; [|discriminate]. cbn [bind] in Ec.
        destruct (loglik_mat _ None) as [ll|e]; [|discriminate]. cbn [bind] in Ec. unfold mk_corr in Ec.
        destruct (normalize_mat lowest _) as [[nw w']|e]; [|discriminate]. cbn [bind] in Ec. injection Ec as <-.
        cbn [c_x c_inds remember ts_val zip_mat m_get]. 
        destruct Hc as [_ _ _ [[I1 I2] I3]]. cbn [c_inds] in I1, I2, I3.
        eexists. rewrite Hl; [|apply I3; lia|exact Hj]. rewrite (Hid eq_refl). reflexivity.
    Qed.

    Variable cf : fconf.

    Lemma advance_lineage fuel : forall r p q r' l s rest,
      lineage n b (s :: rest) -> pred_ok lowest n b p ->
      (forall i j, i < n -> j < b -> m_get (ts_val (p_x p)) i j = m_get (ts_val (c_x s)) (m_get (p_inds p) i j) j) ->
      (k = APF -> forall i j, m_get (p_inds p) i j = i) ->
      advance lowest oo k cf fuel r p = Some (Ok (q, r', l)) ->
      (forall c, In c l -> tracks n b k c) ->
      exists s' rest', rev l ++ s :: rest = s' :: rest' /\ lineage n b (s' :: rest') /\ pred_ok lowest n b q /\
        (forall i j, i < n -> j < b -> m_get (ts_val (p_x q)) i j = m_get (ts_val (c_x s')) (m_get (p_inds q) i j) j) /\
        (k = APF -> forall i j, m_get (p_inds q) i j = i).
    Proof.
      induction fuel as [|fuel IH]; intros r p q r' l s rest Hlin Hp Hl Hid Ea Htr; [discriminate|].
      cbn [advance] in Ea. destruct (observe_every cf =? 0); [discriminate|].
      destruct (_ mod _ =? 0).
      { injection Ea as <- <- <-. exists s, rest. cbn [rev app]. repeat split; try assumption; apply Hp. }
      destruct (create_state_spec lowest oo r n b p Hn Hp (oo_prop r)) as (c & Ec & Hc & Hcx & Hci & _).
      rewrite Ec in Ea.
      destruct (predict lowest oo k (S r) c) as [p'|e] eqn:Ep; [|discriminate].
      destruct (advance lowest oo k cf fuel (S (S r)) p') as [[[[q0 r0] l0]|e]|] eqn:Ea'; [|discriminate|discriminate].
      injection Ea as -> -> <-.
      destruct (predict_linked (S r) c Hc ltac:(apply Htr; now left)) as (p'' & Ep'' & Hp' & _ & Hl' & Hid').
      rewrite Ep in Ep''. injection Ep'' as <-.
      destruct (IH (S (S r)) p' q r' l0 c (s :: rest)) as (s' & rest' & E1 & E2 & E3 & E4 & E5); try assumption.
      - constructor; [exact Hlin|exact Hc|]. eapply create_linked; eassumption.
      - intros c' Hc'. apply Htr. now right.
      - exists s', rest'. cbn [rev]. rewrite <- app_assoc. cbn [app]. repeat split; try assumption; apply E3.
    Qed.

    Lemma step_lineage fuel r y c c' r' l rest : record_intermediary cf = true ->
      lineage n b (c :: rest) -> tracks n b k c ->
      filter_step lowest oo k cf fuel r y c = Some (Ok (c', r', l)) ->
      (forall c, In c l -> tracks n b k c) ->
      exists rest', rev l ++ c :: rest = c' :: rest' /\ lineage n b (c' :: rest').
    Proof.
      intros Hrec Hlin Ht Ef Htr. unfold filter_step in Ef.
      destruct (predict_linked r c (lineage_head _ _ _ _ Hlin) Ht) as (p & Ep & Hp & _ & Hl & Hid). rewrite Ep in Ef.
      destruct (advance lowest oo k cf fuel (S r) p) as [[[[q r1] l1]|e]|] eqn:Ea; [|discriminate|discriminate].
      rewrite Hrec in Ef.
      assert (Hk : k <> GPF) by (intros ->; exact Ht).
      assert (G : exists c1, (if missing y then create_state lowest oo r1 q else correct lowest oo k r1 y q) = Ok c1 /\ l = l1 ++ [c1] /\ c' = c1).
      { destruct (if missing y then _ else _) as [c1|e]; [|discriminate]. injection Ef as <- <- <-. now exists c1. }
      destruct G as (c1 & Ec1 & -> & ->). clear Ef.
      destruct (advance_lineage fuel (S r) p q r1 l1 c rest Hlin Hp Hl Hid Ea) as (s' & rest' & E1 & E2 & E3 & E4 & E5).
      { intros c2 Hc2. apply Htr. apply in_or_app. now left. }
      exists (s' :: rest'). rewrite rev_app_distr. cbn [rev app]. rewrite E1. split; [reflexivity|].
      destruct (missing y).
      - destruct (create_state_spec lowest oo r1 n b q Hn E3 (oo_prop r1)) as (c2 & Ec2 & Hc2 & Hcx & Hci & _).
        rewrite Ec1 in Ec2. injection Ec2 as <-. constructor; [exact E2|exact Hc2|]. eapply create_linked; eassumption.
      - destruct (correct_linked r1 y s' q E3 E4 E5 Hk) as (c2 & Ec2 & Hc2 & Hl2).
        rewrite Ec1 in Ec2. injection Ec2 as <-. now constructor.
    Qed.

    Lemma batch_lineage fuel ys : record_intermediary cf = true -> forall r c c' r' l rest,
      lineage n b (c :: rest) -> tracks n b k c ->
      batch_filter lowest oo k cf fuel r ys c = Some (Ok (c', r', l)) ->
      (forall c, In c l -> tracks n b k c) ->
      exists rest', rev l ++ c :: rest = c' :: rest' /\ lineage n b (c' :: rest').
    Proof.
      intros Hrec. induction ys as [|y ys IH]; intros r c c' r' l rest Hlin Ht Eb Htr; cbn [batch_filter] in Eb.
      - injection Eb as <- <- <-. exists rest. now split.
      - destruct (filter_step lowest oo k cf fuel r y c) as [[[[c1 r1] l1]|e]|] eqn:Es; [|discriminate|discriminate].
        destruct (batch_filter lowest oo k cf fuel r1 ys c1) as [[[[c2 r2] l2]|e]|] eqn:Eb2; [|discriminate|discriminate].
        injection Eb as -> -> <-.
        destruct (step_lineage fuel r y c c1 r1 l1 rest Hrec Hlin Ht Es) as (rest1 & E1 & Hlin1).
        { intros c3 Hc3. apply Htr. apply in_or_app. now left. }
        destruct (IH r1 c1 c' r' l2 rest1 Hlin1) as (rest' & E2 & Hlin2); try assumption.
        { assert (Hin : In c1 (rev l1)).
          { unfold filter_step in Es. destruct (predict _ _ _ _ _); [|discriminate].
            destruct (advance _ _ _ _ _ _ _) as [[[[? ?] ?]|]|]; [|discriminate|discriminate].
            destruct (if missing y then _ else _); [|discriminate]. injection Es as <- <- <-.
            rewrite rev_app_distr. now left. }
          apply in_rev in Hin. apply Htr, in_or_app. now left. }
        { intros c3 Hc3. apply Htr. apply in_or_app. now right. }
        exists rest'. rewrite rev_app_distr, <- app_assoc, E1. now split.
    Qed.
  End Run.

  (** The fixed-lag smoother on a recorded run. *)
  Lemma fl_run k n b cf fuel r ys s0 c r' l : 0 < n -> (forall r flag, resampler_ok o n r flag) ->
    record_intermediary cf = true -> state_ok n b s0 ->
    batch_filter lowest o k cf fuel r ys s0 = Some (Ok (c, r', l)) ->
    exists cp lp, batch_filter lowest oo k cf fuel r ys (newborn s0) = Some (Ok (cp, r', lp)) /\
      c = now_state d cp /\ l = map (now_state d) lp /\
      ((forall s, In s (newborn s0 :: lp) -> tracks n b k s) ->
       exists out, do_sample_fl n b (s0 :: l) = Ok out /\ lists_pasts n b out cp).
  Proof.
    intros Hn Hres Hrec Hs0 Eb. pose proof (sim_batch k cf fuel ys r (newborn s0)) as Hsim. rewrite now_newborn in Hsim.
    rewrite Eb in Hsim. destruct (batch_filter lowest oo k cf fuel r ys (newborn s0)) as [[[[cp rp] lp]|e]|] eqn:Ebp;
      [|discriminate|discriminate]. cbn [lift_out] in Hsim. injection Hsim as -> -> ->.
    exists cp, lp. split; [reflexivity|]. split; [reflexivity|]. split; [reflexivity|]. intros Htr.
    destruct (batch_lineage k n b Hn Hres cf fuel ys Hrec r (newborn s0) cp rp lp []) as (rest' & E & Hlin).
    - constructor.
      + destruct Hs0 as [Hx Hw Hc Hi]. constructor; cbn [newborn c_x c_w c_inds]; try assumption.
      + intros i j Hi Hj. cbn. now eexists.
    - apply Htr. now left.
    - exact Ebp.
    - intros s Hs. apply Htr. now right.
    - destruct (fl_lineage n b cp rest' Hlin) as (out & Eo & Hout). exists out. split; [|exact Hout].
      rewrite <- E in Eo. rewrite rev_app_distr, rev_involutive in Eo. cbn [rev app map] in Eo. now rewrite now_newborn in Eo.
  Qed.
End Sim.
