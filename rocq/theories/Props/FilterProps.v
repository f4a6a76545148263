(** Properties C18-C21 and C68 (pyfilter/filters/particle/sisr.py, apf.py, gpf.py). *)
From Coq Require Import Reals List Bool Arith Lia Lra.
From Verif.Model Require Import Base Xf Tensor Weights Particle.
From Verif.Spec Require Import WeightsSpec ParticleSpec.
From Verif.Proofs Require Import WeightsProofs MomentsProofs ResamplingProofs ParticleProofs StepProofs ColumnProofs.
From Verif.Proofs Require Import GenealogyWitness.
Import ListNotations.
Local Open Scope nat_scope.

(** * C18 *)

Theorem C18_selective_resampling : forall X Y lowest (o : @oracle X Y) thr r n b (s : corr X),
  0 < n -> state_ok n b s -> resampler_ok o n r true ->
  let W j := imp lowest (col (c_w s) j) in
  exists p, sisr_predict lowest o thr r s = Ok p /\ ts_time (p_x p) = ts_time (c_x s) /\
    shaped (ts_val (p_x p)) n b /\ shaped (p_w p) n b /\ shaped (p_nw p) n b /\ shaped (p_inds p) n b /\
    ((forall j, j < b -> ~ (ess_of (W j) < thr)%R) \/
     exists nw sel, shaped nw n (slot lowest thr s b) /\ resampler o r true nw = Ok sel /\
       valid_selection n (slot lowest thr s b) sel /\
       forall j, j < b -> (ess_of (W j) < thr)%R ->
         let k := slot lowest thr s j in
         k < slot lowest thr s b /\
         col nw k = map Fin (W j) /\
         col (ts_val (p_x p)) j = map (fun a => m_get (ts_val (c_x s)) a j) (col sel k) /\
         col (p_w p) j = repeat (Fin 0) n /\
         col (p_nw p) j = repeat (Fin (/ INR n)) n /\
         col (p_inds p) j = col sel k) /\
    (forall j, j < b -> ~ (ess_of (W j) < thr)%R ->
       col (ts_val (p_x p)) j = col (ts_val (c_x s)) j /\
       (forall i, i < n -> m_get (p_w p) i j = m_get (c_w s) i j \/
                           m_get (c_w s) i j = NInf /\ m_get (p_w p) i j = Fin lowest) /\
       col (p_nw p) j = map Fin (W j) /\
       col (p_inds p) j = col (c_inds s) j).
Proof.
  intros X Y lowest o thr r n b s Hn Hs Hres W.
  destruct (sisr_predict_spec lowest o thr r n b s Hn Hs Hres) as (p & Ep & Ht & H1 & H2 & H3 & H4 & Hlow & Hhigh).
  assert (Hl : forall j, (ess_of (W j) < thr)%R <-> low lowest thr s j = true).
  { intros j. unfold low, StepProofs.W. fold (W j). destruct (Rlt_dec (ess_of (W j)) thr); split; intros; try assumption; try congruence; contradiction. }
  exists p. do 6 (split; [assumption|]). split.
  - destruct Hlow as [H0|(nw & sel & S1 & S2 & S3 & A)].
    + left. intros j Hj E. apply Hl in E. pose proof (rank_lt _ j b Hj E). lia.
    + right. exists nw, sel. split; [exact S1|]. split; [exact S2|]. split; [exact S3|].
      intros j Hj E. apply Hl in E. cbn zeta. split; [exact (rank_lt _ j b Hj E)|exact (A j Hj E)].
  - intros j Hj E. destruct (Hhigh j Hj) as (A & B & C & D).
    { destruct (low lowest thr s j) eqn:El; [exfalso; now apply E, Hl|reflexivity]. }
    split; [exact A|]. split; [|split; [exact C|exact D]].
    intros i Hi. destruct H2 as [H2 H2']. destruct Hs as [_ [Hw1 Hw2] Hc _].
    assert (Eg : m_get (p_w p) i j = nan_to_num lowest (m_get (c_w s) i j)).
    { rewrite <- (nth_col (p_w p) i j NaN) by lia. rewrite B.
      rewrite (nth_indep _ NaN (nan_to_num lowest NaN)) by (rewrite map_length, length_col; lia).
      rewrite map_nth. rewrite nth_col by lia. reflexivity. }
    specialize (Hc i j ltac:(lia) ltac:(lia)). destruct (m_get (c_w s) i j); cbn in Hc; try contradiction.
    + left. rewrite Eg. reflexivity.
    + right. split; [reflexivity|]. rewrite Eg. reflexivity.
Qed.
Print Assumptions C18_selective_resampling.

(** Two filters of two particles, the first with even weights, the second with weights 1:9; threshold 3/2. *)
Definition sample_state : corr nat :=
  Corr (TS 0 (Mat 2 2 (fun i j => 10 * j + i))) (Mat 2 2 (fun i j => if (i =? 1) && (j =? 1) then Fin (ln 9) else Fin 0))%bool
       (fun _ => Fin 0) (arange 2 2).
Lemma sample_state_ok : state_ok 2 2 sample_state.
Proof.
  constructor; [now split|now split| |].
  - intros i j _ _. cbn [sample_state c_w m_get]. now destruct ((i =? 1) && (j =? 1))%bool.
  - split; [now split|]. intros i j H _. exact H.
Qed.
Example C18_nonvacuous : state_ok 2 2 sample_state /\ resampler_ok wit 2 0 true /\
  ~ (ess_of (imp 0 (col (c_w sample_state) 0)) < 3/2)%R /\ (ess_of (imp 0 (col (c_w sample_state) 1)) < 3/2)%R.
Proof.
  split; [exact sample_state_ok|]. split; [apply wit_res; lia|].
  unfold sample_state, imp, ess_of, col; cbn -[INR ln]. rewrite exp_0, exp_ln by lra. split.
  - assert (E : (1 / (1 + (1 + 0)) * (1 / (1 + (1 + 0))) + (1 / (1 + (1 + 0)) * (1 / (1 + (1 + 0))) + 0) = /2)%R) by field.
    rewrite E, Rinv_inv. lra.
  - assert (E : (1 / (1 + (9 + 0)) * (1 / (1 + (9 + 0))) + (9 / (1 + (9 + 0)) * (9 / (1 + (9 + 0))) + 0) = 82/100)%R) by field.
    rewrite E. apply Rmult_lt_reg_l with (82/100)%R; [lra|]. rewrite Rinv_r by lra. lra.
Qed.

(** * C19 *)

(** One predict and correct of SISR.  [d], [e]: the random numbers of each parallel filter. *)
Theorem C19_sisr_noninterference : forall X Y D E lowest (o1 o2 : @oracle X Y) thr r1 r2 y n b1 b2 (s1 s2 : corr X)
  (d1 d2 : nat -> D) f (e1 e2 : nat -> E) ft fx fw j1 j2,
  0 < n -> state_ok n b1 s1 -> state_ok n b2 s2 -> j1 < b1 -> j2 < b2 ->
  columnwise_resampler o1 r1 true d1 f -> columnwise_resampler o2 r2 true d2 f ->
  d1 (slot lowest thr s1 j1) = d2 (slot lowest thr s2 j2) ->
  columnwise_proposal o1 (S r1) e1 ft fx fw -> columnwise_proposal o2 (S r2) e2 ft fx fw -> e1 j1 = e2 j2 ->
  same_filter s1 j1 s2 j2 ->
  exists p1 p2 c1 c2,
    predict lowest o1 (SISR thr) r1 s1 = Ok p1 /\ predict lowest o2 (SISR thr) r2 s2 = Ok p2 /\ same_prediction p1 j1 p2 j2 /\
    correct lowest o1 (SISR thr) (S r1) y p1 = Ok c1 /\ correct lowest o2 (SISR thr) (S r2) y p2 = Ok c2 /\ same_filter c1 j1 c2 j2.
Proof.
  intros X Y D E lowest o1 o2 thr r1 r2 y n b1 b2 s1 s2 d1 d2 f e1 e2 ft fx fw j1 j2 Hn H1 H2 J1 J2 R1 R2 Ed P1 P2 Ee Hs.
  destruct (sisr_predict_columns lowest o1 o2 thr r1 r2 n b1 b2 s1 s2 d1 d2 f j1 j2) as (p1 & p2 & Ep1 & Ep2 & Hp); try assumption.
  destruct (predict_ok lowest o1 (SISR thr) r1 n b1 s1 Hn H1 (columnwise_ok _ _ _ _ _ Hn R1)) as (p1' & E1 & Hp1 & _).
  destruct (predict_ok lowest o2 (SISR thr) r2 n b2 s2 Hn H2 (columnwise_ok _ _ _ _ _ Hn R2)) as (p2' & E2 & Hp2 & _).
  cbn [predict] in E1, E2. rewrite Ep1 in E1. injection E1 as <-. rewrite Ep2 in E2. injection E2 as <-.
  destruct (sisr_correct_columns lowest o1 o2 (S r1) (S r2) y n b1 b2 p1 p2 e1 e2 ft fx fw j1 j2) as (c1 & c2 & C1 & C2 & Hc); try assumption.
  exists p1, p2, c1, c2. do 5 (split; [assumption|]). assumption.
Qed.
Print Assumptions C19_sisr_noninterference.

(** One predict and correct of APF. *)
Theorem C19_apf_noninterference : forall X Y D E lowest (o1 o2 : @oracle X Y) r1 r2 y n b1 b2 (s1 s2 : corr X)
  (d1 d2 : nat -> D) f (e1 e2 : nat -> E) ft fx fw fg j1 j2,
  0 < n -> state_ok n b1 s1 -> state_ok n b2 s2 -> j1 < b1 -> j2 < b2 ->
  columnwise_resampler o1 r1 false d1 f -> columnwise_resampler o2 r2 false d2 f -> d1 j1 = d2 j2 ->
  columnwise_proposal o1 r1 e1 ft fx fw -> columnwise_proposal o2 r2 e2 ft fx fw -> e1 j1 = e2 j2 ->
  columnwise_preweight o1 fg -> columnwise_preweight o2 fg ->
  same_filter s1 j1 s2 j2 ->
  exists p1 p2 c1 c2,
    predict lowest o1 APF r1 s1 = Ok p1 /\ predict lowest o2 APF r2 s2 = Ok p2 /\ same_prediction p1 j1 p2 j2 /\
    correct lowest o1 APF r1 y p1 = Ok c1 /\ correct lowest o2 APF r2 y p2 = Ok c2 /\ same_filter c1 j1 c2 j2.
Proof.
  intros X Y D E lowest o1 o2 r1 r2 y n b1 b2 s1 s2 d1 d2 f e1 e2 ft fx fw fg j1 j2 Hn H1 H2 J1 J2 R1 R2 Ed P1 P2 Ee G1 G2 Hs.
  destruct (plain_predict_columns lowest o1 o2 APF r1 r2 n b1 b2 s1 s2 j1 j2) as (p1 & p2 & Ep1 & Ep2 & Hp); try assumption; [now left|].
  assert (K1 : exists p, predict lowest o1 APF r1 s1 = Ok p /\ pred_ok lowest n b1 p).
  { set (o' := {| resampler := fun _ _ m => Ok (Mat (m_rows m) (m_cols m) (fun _ _ => 0)); propagate := propagate o1;
                  sample_and_weight := sample_and_weight o1; pre_weight := pre_weight o1 |}).
    destruct (predict_ok lowest o' APF r1 n b1 s1 Hn H1) as (p & Ep & Hp' & _); [|exists p; now split].
    intros m Hm. eexists. split; [reflexivity|]. split; [now split|]. intros i j _ _. exact Hn. }
  assert (K2 : exists p, predict lowest o2 APF r2 s2 = Ok p /\ pred_ok lowest n b2 p).
  { set (o' := {| resampler := fun _ _ m => Ok (Mat (m_rows m) (m_cols m) (fun _ _ => 0)); propagate := propagate o2;
                  sample_and_weight := sample_and_weight o2; pre_weight := pre_weight o2 |}).
    destruct (predict_ok lowest o' APF r2 n b2 s2 Hn H2) as (p & Ep & Hp' & _); [|exists p; now split].
    intros m Hm. eexists. split; [reflexivity|]. split; [now split|]. intros i j _ _. exact Hn. }
  destruct K1 as (p1' & E1 & Hp1). destruct K2 as (p2' & E2 & Hp2).
  rewrite Ep1 in E1. injection E1 as <-. rewrite Ep2 in E2. injection E2 as <-.
  destruct (apf_correct_columns lowest o1 o2 r1 r2 y n b1 b2 p1 p2 e1 e2 ft fx fw d1 d2 f fg j1 j2) as (c1 & c2 & C1 & C2 & Hc); try assumption.
  exists p1, p2, c1, c2. do 5 (split; [assumption|]). assumption.
Qed.
Print Assumptions C19_apf_noninterference.

(** An oracle that treats columns separately: particle values are numbers, the draw of filter [j] is [d j]. *)
Definition colwise (d : nat -> nat) : @oracle nat (list xf) := {|
  resampler := fun _ _ m => Ok (Mat (m_rows m) (m_cols m) (fun i j => (i + d j) mod m_rows m));
  propagate := fun _ x => x;
  sample_and_weight := fun _ _ x w nw =>
    (TS (S (ts_time x)) (Mat (m_rows (ts_val x)) (m_cols (ts_val x)) (fun i j => m_get (ts_val x) i j + d j)),
     Mat (m_rows (ts_val x)) (m_cols (ts_val x)) (fun i j => Fin (INR (m_get (ts_val x) i j))));
  pre_weight := fun _ x => Mat (m_rows (ts_val x)) (m_cols (ts_val x)) (fun i j => Fin (INR (m_get (ts_val x) i j)))
|}.
Example C19_nonvacuous : forall d r,
  columnwise_resampler (colwise d) r true d (fun d l => map (fun i => (i + d) mod length l) (seq 0 (length l))) /\
  columnwise_resampler (colwise d) r false d (fun d l => map (fun i => (i + d) mod length l) (seq 0 (length l))) /\
  columnwise_proposal (colwise d) r d S (fun d _ _ x _ _ => map (fun a => a + d) x) (fun d _ _ x _ _ => map (fun a => Fin (INR a)) x) /\
  columnwise_preweight (colwise d) (fun _ _ x => map (fun a => Fin (INR a)) x) /\
  same_filter sample_state 1 (Corr (TS 0 (Mat 2 1 (fun i _ => 10 + i))) (Mat 2 1 (fun i _ => if i =? 1 then Fin (ln 9) else Fin 0))
    (fun _ => Fin 0) (arange 2 1)) 0.
Proof.
  intros d r.
  assert (A : forall flag, columnwise_resampler (colwise d) r flag d (fun d l => map (fun i => (i + d) mod length l) (seq 0 (length l)))).
  { intros flag m Hm. eexists. split; [reflexivity|]. split; [now split|]. split.
    - intros i j _ _. cbn [m_get]. apply Nat.mod_upper_bound. lia.
    - intros k Hk. unfold col. cbn [m_rows m_get]. rewrite map_length, seq_length. reflexivity. }
  split; [apply A|]. split; [apply A|]. split.
  { intros y x w nw. split; [reflexivity|]. split; [now split|]. split; [now split|].
    intros k Hk. unfold col. cbn. rewrite !map_map. now split. }
  split.
  { intros y x. split; [now split|]. intros k Hk. unfold col. cbn. now rewrite map_map. }
  repeat split.
Qed.

(** * C20 *)

Theorem C20_sisr_importance_sampling : forall X Y lowest (o : @oracle X Y) r y n b (p : pred X),
  0 < n -> pred_ok lowest n b p -> proposal_shape o r ->
  let v := snd (sample_and_weight o r y (p_x p) (p_w p) (p_nw p)) in
  entries is_fin v ->
  exists c, sisr_correct lowest o r y p = Ok c /\ state_ok n b c /\
    c_x c = fst (sample_and_weight o r y (p_x p) (p_w p) (p_nw p)) /\ c_inds c = p_inds p /\
    forall j, j < b -> let W := imp lowest (col (p_w p) j) in
      col (p_nw p) j = map Fin W /\
      (0 < Rsum (tilt W (reals v j)))%R /\
      c_ll c j = Fin (ln (Rsum (tilt W (reals v j)))) /\
      reals (c_w c) j = map (fun q => (fst q + snd q)%R) (combine (reals v j) (reals (p_w p) j)) /\
      entries is_fin (c_w c) /\
      imp lowest (col (c_w c) j) = normal (tilt W (reals v j)).
Proof.
  intros X Y lowest o r y n b p Hn Hp Hs v Hv.
  destruct (sisr_correct_spec lowest o r y n b p Hn Hp Hs Hv) as (c & E & H1 & H2 & H3 & H4).
  exists c. do 4 (split; [assumption|]). intros j Hj W. split; [exact (po_imp _ _ _ _ Hp j Hj)|]. exact (H4 j Hj).
Qed.
Print Assumptions C20_sisr_importance_sampling.

Definition sample_pred : pred nat :=
  Pred (TS 0 (Mat 2 1 (fun i _ => i))) (Mat 2 1 (fun i _ => if i =? 1 then Fin (ln 9) else Fin 0))
       (Mat 2 1 (fun i _ => if i =? 1 then Fin (9/10) else Fin (1/10))) (arange 2 1).
Lemma sample_pred_ok lowest : pred_ok lowest 2 1 sample_pred.
Proof.
  constructor; [now split|now split| |now split| |].
  - intros i j _ _. cbn [sample_pred p_w m_get]. now destruct (i =? 1).
  - intros j _. unfold col, imp. cbn -[ln]. rewrite exp_0, exp_ln by lra. do 2 f_equal; [field|]. f_equal. f_equal. field.
  - split; [now split|]. intros i j H _. exact H.
Qed.
Example C20_nonvacuous : pred_ok 0 2 1 sample_pred /\ proposal_shape wit 0 /\
  entries is_fin (snd (sample_and_weight wit 0 [Fin 0] (p_x sample_pred) (p_w sample_pred) (p_nw sample_pred))).
Proof.
  split; [apply sample_pred_ok|]. split; [apply wit_samp|]. intros i j _ _. cbn [wit sample_and_weight snd m_get].
  now destruct ((ts_time (p_x sample_pred) =? 0) && (i =? 1))%bool.
Qed.

(** * C21 *)

Theorem C21_apf_lookahead_divided_out : forall X Y lowest (o : @oracle X Y) r y n b (p : pred X),
  0 < n -> pred_ok lowest n b p -> proposal_shape o r -> preweight_shape o -> resampler_ok o n r false ->
  let g := pre_weight o y (p_x p) in
  entries is_fin g ->
  exists Z anc parents zeros unif,
    resampler o r false Z = Ok anc /\ shaped Z n b /\ entries is_fin Z /\ valid_selection n b anc /\
    ts_time parents = ts_time (p_x p) /\ shaped (ts_val parents) n b /\
    shaped zeros n b /\ shaped unif n b /\
    (forall j, j < b ->
       (0 < Rsum (tilt (imp lowest (col (p_w p) j)) (reals g j)))%R /\
       imp lowest (col Z j) = normal (tilt (imp lowest (col (p_w p) j)) (reals g j)) /\
       col (ts_val parents) j = map (fun a => m_get (ts_val (p_x p)) a j) (col anc j) /\
       col zeros j = repeat (Fin 0) n /\ col unif j = repeat (Fin (/ INR n)) n) /\
    let v := snd (sample_and_weight o r y parents zeros unif) in
    (entries is_fin v -> exists c, apf_correct lowest o r y p = Ok c /\ state_ok n b c /\
       c_x c = fst (sample_and_weight o r y parents zeros unif) /\ c_inds c = anc /\ entries is_fin (c_w c) /\
       forall j, j < b ->
         let incr := map (fun q => (fst q - nth (snd q) (reals g j) 0)%R) (combine (reals v j) (col anc j)) in
         reals (c_w c) j = incr /\
         c_ll c j = Fin (ln (/ INR n * Rsum (map exp incr)) + ln (Rsum (tilt (imp lowest (col (p_w p) j)) (reals g j))))).
Proof. exact (@apf_correct_spec). Qed.
Print Assumptions C21_apf_lookahead_divided_out.

Example C21_nonvacuous : pred_ok 0 2 1 sample_pred /\ resampler_ok (colwise (fun _ => 1)) 2 0 false /\
  preweight_shape (colwise (fun _ => 1)) /\ proposal_shape (colwise (fun _ => 1)) 0 /\
  entries is_fin (pre_weight (colwise (fun _ => 1)) [Fin 0] (p_x sample_pred)) /\
  reals (pre_weight (colwise (fun _ => 1)) [Fin 0] (p_x sample_pred)) 0 = [0; 1]%R.
Proof.
  split; [apply sample_pred_ok|]. split.
  { apply (columnwise_ok (D := nat) 0 false (fun _ => 1) _ 2 ltac:(lia) (proj1 (proj2 (C19_nonvacuous (fun _ => 1) 0)))). }
  split; [intros y x; now split|]. split; [intros y x w nw; split; now split|].
  split; [intros i j _ _; exact I|]. reflexivity.
Qed.

(** * C68 *)

(** The Gaussian particle filter replaces the weights by the incremental ones. *)
Theorem C68_gpf_weights : forall X Y lowest (o : @oracle X Y) r y n b (p : pred X),
  0 < n -> pred_ok lowest n b p -> proposal_shape o r ->
  let v := snd (sample_and_weight o r y (p_x p) (p_w p) (p_nw p)) in
  entries is_fin v ->
  exists c, gpf_correct lowest o r y p = Ok c /\ state_ok n b c /\
    c_x c = fst (sample_and_weight o r y (p_x p) (p_w p) (p_nw p)) /\ c_inds c = p_inds p /\
    forall j, j < b ->
      c_ll c j = Fin (ln (/ INR n * Rsum (map exp (reals v j)))) /\
      reals (c_w c) j = reals v j /\
      imp lowest (col (c_w c) j) = normal (map exp (reals v j)).
Proof. exact (@gpf_correct_spec). Qed.
Print Assumptions C68_gpf_weights.

Example C68_nonvacuous : pred_ok 0 2 1 sample_pred /\ proposal_shape (colwise (fun _ => 1)) 0 /\
  reals (snd (sample_and_weight (colwise (fun _ => 1)) 0 [Fin 0] (p_x sample_pred) (p_w sample_pred) (p_nw sample_pred))) 0 = [0; 1]%R.
Proof. split; [apply sample_pred_ok|]. split; [intros y x w nw; split; now split|]. reflexivity. Qed.
