(** Property C86 (pyfilter/filters/particle: sisr.py, apf.py, base.py; pyfilter/filters/base.py): the likelihood estimate is
    unbiased. *)
From Coq Require Import String Reals List Bool Arith Lia Lra.
From Coquelicot Require Import Coquelicot.
From Verif.Model Require Import Base Xf Tensor Weights Resampling Particle FilterLoop Proposal.
From Verif.Spec Require Import WeightsSpec ResamplingSpec ParticleSpec LoopSpec UnbiasedSpec FairSpec.
From Verif.Proofs Require Import WeightsProofs MomentsProofs ResamplingProofs ParticleProofs StepProofs ProposalProofs UnbiasedProofs UnbiasedFilter.
From Verif.Props Require Import ResamplingProps ResampleMeanProps.
Import ListNotations.
Local Open Scope nat_scope.

(** The estimate of a run from the initial sample [x0]. *)
Definition run_estimate {X} lowest (o : @oracle X (list xf)) kd cf fuel r ys n b (j : nat) (x0 : tstate X) : R :=
  match initialize lowest n b x0 with
  | Ok s => estimate j (batch_filter lowest o kd cf fuel r ys s)
  | Raise _ => 0%R
  end.

Notation length := List.length.
(** SISR with any threshold and APF; any resampling, proposal and model within the contract. *)
Theorem C86_unbiased : forall (X U D : Type) lowest (LU : law (nat -> U)) (LD : law (nat -> D)) (LX : law (tstate X)) C good usable fr fp fx fw fg
    n b j move movable kd cf fuel ys k r w m,
  law_ok LU -> law_ok LD -> law_ok LX -> separate LU LD C good usable fr fp fx fw fg -> 0 < n -> j < b ->
  fair_resampling lowest LU n b fr -> fair_moves LD good n j move movable fp fx fw ->
  ((exists thr, kd = SISR thr) \/ kd = APF) -> observe_every cf <> 0 -> observe_every cf <= fuel ->
  (forall y, In y ys -> seen y <> None -> usable y) ->
  let ys' := map seen ys in
  has_likelihood move movable (observe_every cf) 0 ys' -> draws (observe_every cf) 0 ys' <= k ->
  (forall x0, supp LX x0 -> ts_time x0 = 0 /\ shaped (ts_val x0) n b /\ entries good (ts_val x0)) ->
  (forall i, i < n -> averages LX (fun x0 => likelihood move (observe_every cf) 0 ys' (m_get (ts_val x0) i j)) m) ->
  let est x0 w := run_estimate lowest (at_stream C w) kd cf fuel r ys n b j x0 in
  averages LX (fun x0 => average LU LD k r (est x0) w) m /\ forall x0, supp LX x0 -> exists_average LU LD k r (est x0) w.
Proof.
  intros X U D lowest LU LD LX C good usable fr fp fx fw fg n b j move movable kd cf fuel ys k r w m HU HD HX Hsep Hn Hj Hres Hmove Hkd Hev Hfuel
    Hys ys' Hlik Hk Hx0 Hm est.
  set (L0 := likelihood move (observe_every cf) 0 ys').
  assert (Hrun : forall x0, supp LX x0 -> averages_over LU LD k r (est x0) w (sumto n (fun i => / INR n * L0 (m_get (ts_val x0) i j))%R)).
  { intros x0 Hs. destruct (Hx0 x0 Hs) as (T & Sh & G).
    destruct (initialize_ok lowest n b x0 Hn Sh) as (s & Es & Hok & Ex & _ & _ & Ew).
    assert (Hso : sok good n b s) by (split; [exact Hok|rewrite Ex; exact G]).
    assert (T' : ts_time (c_x s) = 0) by (rewrite Ex; exact T).
    pose proof (from_states lowest LU LD HU HD C fr fp fx fw fg good usable Hsep n b j Hn Hj Hres move movable Hmove (m_get (ts_val x0) 0 0) kd Hkd cf Hev ys) as H.
    specialize (H ltac:(apply Forall_forall; exact Hys) fuel k r s w (est x0) 1%R Hfuel Hso ltac:(rewrite T'; exact Hlik) ltac:(rewrite T'; exact Hk)).
    specialize (H ltac:(intros w' _; unfold est, run_estimate; rewrite Es; ring)). rewrite T' in H. fold ys' in H. fold L0 in H.
    rewrite Rmult_1_l in H. unfold value, spread in H.
    assert (Ei : imp lowest (col (c_w s) j) = repeat (/ INR n)%R n).
    { rewrite (Ew j). replace (repeat (Fin 0) n) with (map Fin (repeat 0%R n)) by now rewrite map_repeat'. rewrite imp_fin, map_repeat', exp_0. unfold normal.
      rewrite map_repeat'. f_equal. rewrite Rsum_repeat. field. apply not_0_INR. lia. }
    rewrite Ei, Ex in H. refine (eq_rect _ (averages_over LU LD k r (est x0) w) H _ _). apply sumto_ext. intros i Hi. f_equal.
    apply (proj1 (Forall_forall (fun x => x = (/ INR n)%R) (repeat (/ INR n)%R n))); [apply Forall_forall; intros x Hx; now apply repeat_spec in Hx|apply nth_In; now rewrite repeat_length]. }
  split; [|intros x0 Hs; apply (Hrun x0 Hs)].
  apply (averages_ext LX HX (fun x0 => sumto n (fun i => / INR n * L0 (m_get (ts_val x0) i j))%R)); [intros x0 Hs; symmetry; apply (Hrun x0 Hs)|].
  assert (A : averages LX (fun x0 => sumto n (fun i => / INR n * L0 (m_get (ts_val x0) i j))%R) (sumto n (fun i => / INR n * m)%R)).
  { apply averages_sum; [exact HX|]. intros i Hi. apply in_seq in Hi. apply averages_scal; [exact HX|]. apply Hm. lia. }
  refine (eq_rect _ (averages LX _) A _ _). rewrite sumto_scal. unfold sumto. 
  assert (E : Rsum (map (fun _ : nat => m) (seq 0 n)) = (INR n * m)%R).
  { rewrite <- (Rsum_repeat m n). f_equal. rewrite <- (seq_length n 0) at 2. generalize (seq 0 n). induction l; cbn; congruence. }
  rewrite E. field. apply not_0_INR. lia.
Qed.
Print Assumptions C86_unbiased.

(** * The bootstrap proposal with systematic resampling *)
Section Bootstrap.
  (** A state space model whose hidden process moves by [step t j x e], where [e] is noise of law [K] and [j] the filter
      (the filters may have different parameters); [K0]: law of the initial value. *)
  Context {E : Type} (M : ssm) (step : nat -> nat -> xf -> E -> xf) (K : law E) (e0 : E) (K0 : law xf) (x00 : xf).
  Variables (lowest : R) (n b : nat).
  (** The model with the noise [e j i] for particle [i] of filter [j]. *)
  Definition driven (e : nat -> nat -> E) : ssm :=
    SSM (mean_scale M) (hid_logp M)
      (fun _ x => Mat (m_rows (ts_val x)) (m_cols (ts_val x)) (fun i j => step (ts_time x) j (m_get (ts_val x) i j) (e j i)))
      (obs_logp M) (par_a M) (par_b M) (par_s M).
  (** resampling.py:24-52 as called by the filters (sisr.py:36, apf.py:41), for a batch. *)
  Definition systematic_mat (u : nat -> R) (flag : bool) (w : mat xf) : res (mat nat) :=
    match systematic lowest u (W2 w) flag None with
    | Ok (I2 i) => Ok i
    | Ok (I1 _) => Raise RuntimeError
    | Raise e => Raise e
    end.
  (** A filter with systematic resampling and the bootstrap proposal; observations have one component. *)
  Definition bootstrap_chances (normals : nat -> nat -> nat -> R) autodiff pick : @chances xf R (nat * (nat -> E)) :=
    Chances systematic_mat
      (fun d => hid_propagate (driven (fun j => snd (d j))) 0)
      (fun d y => sample_weigh (driven (fun j => snd (d j))) normals autodiff pick lowest PBootstrap 0 (hd NaN y))
      (fun y => look_ahead M PBootstrap (hd NaN y)).
  (** Independent uniform offsets for the filters, independent noise for the particles, independent initial values. *)
  Definition offsets : law (nat -> R) := independent uniform b (fun _ => (/ 2)%R).
  Definition noise : law (nat -> nat * (nat -> E)) :=
    image (fun e k => (k, e k)) (independent (independent K n (fun _ => e0)) b (fun _ _ => e0)).
  Definition initial : law (tstate xf) :=
    image (fun z => TS 0 (Mat n b (fun i j => z j i))) (independent (independent K0 n (fun _ => x00)) b (fun _ _ => x00)).
  (** One move of filter [j]: the average over the noise, weighted by the density of the observation. *)
  Definition next (j t : nat) (y : option (list xf)) (f : xf -> R) (x : xf) : E -> R := fun e =>
    let x' := step t j x e in
    match y with None => f x' | Some y => (exp (real_of (obs_logp M (S t) j x' (hd NaN y))) * f x')%R end.
  Definition moves (j t : nat) y f x : R := mean K (next j t y f x).
  Definition movable (j t : nat) y f : Prop := forall x, is_fin x -> dom K (next j t y f x).
End Bootstrap.

(** The likelihood of the observations under the state space model is the average of the estimate, for any number of
    particles, SISR with any threshold or APF. *)
Theorem C86_bootstrap : forall (E : Type) (M : ssm) step (K : law E) e0 (K0 : law xf) x00 lowest n b j normals autodiff pick kd cf fuel ys k r w,
  law_ok K -> law_ok K0 -> supp K e0 -> supp K0 x00 -> (forall x, supp K0 x -> is_fin x) -> 0 < n -> j < b ->
  (forall t i x e, is_fin x -> supp K e -> is_fin (step t i x e)) ->
  (forall t i x y, is_fin x -> is_fin y -> is_fin (obs_logp M t i x y)) ->
  (forall t i x, is_fin x -> is_fin (fst (mean_scale M t i x))) ->
  ((exists thr, kd = SISR thr) \/ kd = APF) -> observe_every cf <> 0 -> observe_every cf <= fuel ->
  (forall y, In y ys -> exists v, y = [v] /\ (is_fin v \/ v = NaN)) ->
  let ys' := map seen ys in
  let move := moves M step K j in
  has_likelihood move (movable M step K j) (observe_every cf) 0 ys' ->
  dom K0 (likelihood move (observe_every cf) 0 ys') ->
  draws (observe_every cf) 0 ys' <= k ->
  let C := bootstrap_chances M step lowest normals autodiff pick in
  let est x0 w := run_estimate lowest (at_stream C w) kd cf fuel r ys n b j x0 in
  averages (initial K0 x00 n b) (fun x0 => average (offsets b) (noise K e0 n b) k r (est x0) w)
    (mean K0 (likelihood move (observe_every cf) 0 ys')) /\
  forall x0, supp (initial K0 x00 n b) x0 -> exists_average (offsets b) (noise K e0 n b) k r (est x0) w.
Proof.
  intros E M step K e0 K0 x00 lowest n b j normals autodiff pick kd cf fuel ys k r w HK HK0 He0 Hx00 Hfin0 Hn Hj Hstep Hobs Hmean Hkd Hev Hfuel Hys ys' move Hlik Hdom Hk C.
  pose proof (independent_ok uniform uniform_ok (fun _ => (/ 2)%R) ltac:(intros; cbn; lra) b) as OU.
  assert (OK1 : law_ok (independent K n (fun _ => e0))) by (apply independent_ok; [exact HK|intros; exact He0]).
  assert (S1 : forall q : nat, supp (independent K n (fun _ => e0)) (fun _ => e0)) by (intros; apply supp_independent; intros; exact He0).
  assert (OK2 : law_ok (independent (independent K n (fun _ => e0)) b (fun _ _ => e0))) by (apply independent_ok; [exact OK1|exact S1]).
  assert (OX1 : law_ok (independent K0 n (fun _ => x00))) by (apply independent_ok; [exact HK0|intros; exact Hx00]).
  assert (SX1 : forall q : nat, supp (independent K0 n (fun _ => x00)) (fun _ => x00)) by (intros; apply supp_independent; intros; exact Hx00).
  assert (OX2 : law_ok (independent (independent K0 n (fun _ => x00)) b (fun _ _ => x00))) by (apply independent_ok; [exact OX1|exact SX1]).
  assert (Hnoise : forall d, supp (noise K e0 n b) d -> (forall q, fst (d q) = q) /\ forall q i, supp K (snd (d q) i)).
  { intros d (e & He & <-). split; [reflexivity|]. intros q i. cbn [snd]. pose proof (proj1 (supp_independent _ _ _ _) He q) as H1.
    exact (proj1 (supp_independent _ _ _ _) H1 i). }
  set (fp := fun (d : nat * (nat -> E)) t xs => map (fun i => step t (fst d) (nth i xs NaN) (snd d i)) (seq 0 (length xs))).
  set (fr := fun flag (u : R) l => selected1 (systematic lowest (fun _ => u) (W1 l) flag None)).
  set (fx := fun d (y : list xf) t xs (_ _ : list xf) => fp d t xs).
  set (fw := fun (d : nat * (nat -> E)) (y : list xf) t xs (_ _ : list xf) => map (fun x => obs_logp M (S t) (fst d) x (hd NaN y)) (fp d t xs)).
  set (fg := fun k (y : list xf) t xs => map (fun x => obs_logp M (S t) k (fst (mean_scale M t k x)) (hd NaN y)) xs).
  set (usable := fun y : list xf => is_fin (hd NaN y)).
  assert (Lfp : forall d t xs, length (fp d t xs) = length xs) by (intros; unfold fp; now rewrite map_length, seq_length).
  assert (Ccol : forall (x : tstate xf) d q, fst d = q -> col (Mat (m_rows (ts_val x)) (m_cols (ts_val x)) (fun i j => step (ts_time x) j (m_get (ts_val x) i j) (snd d i))) q = fp d (ts_time x) (col (ts_val x) q)).
  { intros x d q Hd. unfold fp, col. cbn [m_rows m_get]. rewrite map_length, seq_length. apply map_ext_in. intros i Hi. apply in_seq in Hi.
    rewrite Hd. do 2 f_equal. change (map _ (seq 0 (m_rows (ts_val x)))) with (col (ts_val x) q). symmetry. apply nth_col. lia. }
  assert (Hsep : separate (offsets b) (noise K e0 n b) C is_fin usable fr fp fx fw fg).
  { constructor.
    - intros w' r' flag Hw m Hm.
      assert (Hu : forall q, (0 <= fst (w' r') q <= 1)%R) by (intros q; pose proof (proj1 (supp_independent _ _ _ _) Hw q) as H; cbn in H; lra).
      destruct (C17_batch_is_columnwise lowest (fst (w' r')) m flag Hm Hu) as (out & Eo & R1 & R2 & Hc).
      exists out. cbn [at_stream resampler C bootstrap_chances resample]. unfold systematic_mat. rewrite Eo. split; [reflexivity|]. split; [now split|]. split.
      + apply (fin_cols n b j Hn Hj). intros q Hq. rewrite R2 in Hq. specialize (Hc q Hq).
        destruct (C11_valid_indices lowest (fun _ => fst (w' r') q) (col m q) flag None) as (out' & Eo' & _ & Hv); [|intros; apply Hu|].
        * intros E'. apply (f_equal (@length xf)) in E'. rewrite length_col in E'. simpl in E'. lia.
        * rewrite Hc in Eo'. injection Eo' as <-. rewrite length_col in Hv. apply Forall_forall. exact Hv.
      + intros q Hq. unfold fr. now rewrite (Hc q Hq).
    - intros d Hd x. destruct (Hnoise d Hd) as [D1 D2]. split; [reflexivity|]. split; [now split|]. intros q Hq. apply Ccol, D1.
    - intros w' r' Hd y x v nv. destruct (Hnoise _ Hd) as [D1 D2]. cbn zeta. split; [reflexivity|]. split; [now split|]. split; [now split|]. intros q Hq.
      cbn [at_stream sample_and_weight C bootstrap_chances propose sample_weigh bootstrap fst snd hid_propagate propagate_from ts_val].
      split; [apply Ccol, D1|]. unfold fw. rewrite <- (Ccol x (snd (w' r') q) q (D1 q)). rewrite D1. unfold obs_weight, col. cbn. rewrite map_map. reflexivity.
    - intros y x. split; [now split|]. intros q Hq. cbn [C bootstrap_chances look look_ahead]. unfold affine_pre_weight, obs_weight, fg, col, like. cbn. rewrite map_map. reflexivity.
    - intros d q t xs Hd Hxs. destruct (Hnoise d Hd) as [D1 D2]. unfold fp. apply Forall_forall. intros x Hx. apply in_map_iff in Hx. destruct Hx as (i & <- & Hi).
      apply in_seq in Hi. apply Hstep; [|apply D2]. apply (proj1 (Forall_forall _ _) Hxs). apply nth_In. lia.
    - intros d q y t xs ws nws Hd Hy Hxs. destruct (Hnoise d Hd) as [D1 D2].
      assert (G : List.Forall is_fin (fp (d q) t xs)).
      { unfold fp. apply Forall_forall. intros x Hx. apply in_map_iff in Hx. destruct Hx as (i & <- & Hi).
        apply in_seq in Hi. apply Hstep; [|apply D2]. apply (proj1 (Forall_forall _ _) Hxs). apply nth_In. lia. }
      split; [exact G|]. unfold fw. apply Forall_forall. intros x Hx. apply in_map_iff in Hx. destruct Hx as (x' & <- & Hx').
      apply Hobs; [|exact Hy]. now apply (proj1 (Forall_forall _ _) G).
    - intros q y t xs Hy Hxs. unfold fg. apply Forall_forall. intros x Hx. apply in_map_iff in Hx. destruct Hx as (x' & <- & Hx').
      apply Hobs; [|exact Hy]. apply Hmean. now apply (proj1 (Forall_forall _ _) Hxs). }
  assert (Hres : fair_resampling lowest (offsets b) n b fr).
  { split.
    - intros q W i Hq HW LW Hi. apply (independent_one uniform uniform_ok (fun _ => (/ 2)%R) ltac:(intros; cbn; lra) b q (fun u => INR (copies i (fr true u (map Fin W))))); [|exact Hq].
      apply uniform_is. rewrite <- LW. apply C85_systematic; [exact HW|lia].
    - intros q l i Hq Hl Ll Hi. apply (independent_one uniform uniform_ok (fun _ => (/ 2)%R) ltac:(intros; cbn; lra) b q (fun u => INR (copies i (fr false u l)))); [|exact Hq].
      apply uniform_is. rewrite <- Ll. apply C85_systematic_log; [|intros x Hx; pose proof (proj1 (Forall_forall _ _) Hl x Hx) as F; destruct x; now simpl in *|lia].
      intros ->. simpl in Ll. lia. }
  assert (Hone : forall i g m, i < n -> averages K g m -> averages (noise K e0 n b) (fun d => g (snd (d j) i)) m).
  { intros i g m Hi Hg. apply averages_image. cbn [snd].
    apply (independent_one _ OK1 _ S1 b j (fun e => g (e i))); [|exact Hj]. now apply (independent_one K HK _ (fun _ => He0) n i g). }
  assert (Hmove : fair_moves (noise K e0 n b) is_fin n j move (movable M step K j) fp fx fw).
  { split.
    - intros t xs i f d Lx Gx Hi Hm.
      assert (Gi : is_fin (nth i xs d)) by (apply (proj1 (Forall_forall _ _) Gx), nth_In; lia).
      apply (averages_ext _ (image_ok _ _ OK2) (fun e => next M step j t None f (nth i xs d) (snd (e j) i))).
      + intros e He. destruct (Hnoise e He) as [D1 D2]. unfold next, fp. rewrite D1. f_equal. symmetry.
        rewrite (nth_map' _ _ _ d 0) by (rewrite seq_length; lia). rewrite seq_nth by lia. cbn [Nat.add]. f_equal. apply nth_indep. lia.
      + apply Hone; [exact Hi|]. split; [now apply Hm|reflexivity].
    - intros y t xs ws nws i f d Lx Gx Hi Hm.
      assert (Gi : is_fin (nth i xs d)) by (apply (proj1 (Forall_forall _ _) Gx), nth_In; lia).
      apply (averages_ext _ (image_ok _ _ OK2) (fun e => next M step j t (Some y) f (nth i xs d) (snd (e j) i))).
      + intros e He. destruct (Hnoise e He) as [D1 D2]. unfold next, fw, fx. rewrite D1.
        assert (Ei : nth i (fp (e j) t xs) d = step t j (nth i xs d) (snd (e j) i)).
        { unfold fp. rewrite D1. rewrite (nth_map' _ _ _ d 0) by (rewrite seq_length; lia). rewrite seq_nth by lia. cbn [Nat.add]. f_equal. apply nth_indep. lia. }
        rewrite (nth_map' _ (fp (e j) t xs) i NaN d) by (rewrite Lfp; lia). now rewrite Ei.
      + apply Hone; [exact Hi|]. split; [now apply Hm|reflexivity]. }
  apply (C86_unbiased xf R (nat * (nat -> E)) lowest (offsets b) (noise K e0 n b) (initial K0 x00 n b) C is_fin usable fr fp fx fw fg n b j move (movable M step K j));
    try assumption.
  - now apply image_ok.
  - now apply image_ok.
  - intros y Hy Hs. destruct (Hys y Hy) as (v & -> & [Hv| ->]); [exact Hv|]. now contradiction Hs.
  - intros x0 (z & Hz & <-). split; [reflexivity|]. split; [now split|]. intros i q Hi Hq. cbn [m_get ts_val]. apply Hfin0.
    pose proof (proj1 (supp_independent _ _ _ _) Hz q) as H1. exact (proj1 (supp_independent _ _ _ _) H1 i).
  - intros i Hi. apply averages_image. cbn [ts_val m_get].
    apply (independent_one _ OX1 _ SX1 b j (fun e => likelihood move (observe_every cf) 0 (map seen ys) (e i))); [|exact Hj].
    apply (independent_one K0 HK0 _ (fun _ => Hx00) n i (likelihood move (observe_every cf) 0 (map seen ys))); [|exact Hi]. now split.
Qed.
Print Assumptions C86_bootstrap.

(** A process that halves and adds one or minus one, observed at every second step with normal noise, a missing observation among
    three; two filters of three particles. *)
Definition toy_model : ssm :=
  SSM (fun _ _ x => (xmul (Fin (/ 2)) x, Fin 1)) (fun _ _ _ _ => Fin 0) (fun _ x => ts_val x) (fun _ _ x y => normal_logp x (Fin 1) y)
    (fun _ => Fin 1) (fun _ => Fin 0) (fun _ => Fin 1).
Definition toy_step (_ _ : nat) (x : xf) (e : R) : xf := xadd (xmul (Fin (/ 2)) x) (Fin e).
Definition toy_noise : law R := finite [(1, / 2); (- (1), / 2)]%R.
Definition toy_start : law xf := finite [(Fin 0, / 2); (Fin 1, / 2)]%R.
Definition toy_data : list (list xf) := [[Fin 1]; [NaN]; [Fin 2]].
Definition toy_conf : fconf := FConf 2 true "skip"%string.
Example C86_nonvacuous : forall lowest kd, kd = SISR 2 \/ kd = APF ->
  let move := moves toy_model toy_step toy_noise 1 in
  let L := mean toy_start (likelihood move 2 0 (map seen toy_data)) in
  let C := bootstrap_chances toy_model toy_step lowest (fun _ _ _ => 0%R) (fun f => f) (fun _ _ _ _ => 0) in
  (0 < L)%R /\ draws 2 0 (map seen toy_data) = 10 /\
  forall w, averages (initial toy_start (Fin 0) 3 2)
    (fun x0 => average (offsets 2) (noise toy_noise 1%R 3 2) 10 0 (fun w => run_estimate lowest (at_stream C w) kd toy_conf 2 0 toy_data 3 2 1 x0) w) L.
Proof.
  intros lowest kd Hkd move L C. split; [|split; [reflexivity|]].
  - assert (Hm : forall t y f x, (forall x, 0 < f x)%R -> (0 < move t y f x)%R).
    { intros t y f x Hf. unfold move, moves, next. cbn [toy_noise finite mean map fold_right fst snd]. destruct y as [y|].
      - pose proof (fun z => Rmult_lt_0_compat _ _ (exp_pos (real_of (obs_logp toy_model (S t) 1 (toy_step t 1 x z) (hd NaN y)))) (Hf (toy_step t 1 x z))) as P.
        pose proof (P 1%R). pose proof (P (- (1))%R). lra.
      - pose proof (Hf (toy_step t 1 x 1)). pose proof (Hf (toy_step t 1 x (- (1)))). lra. }
    assert (Hh : forall m t f x, (forall x, 0 < f x)%R -> (0 < hops move m t f x)%R).
    { induction m as [|m IH]; intros t f x Hf; cbn [hops]; [apply Hf|]. apply Hm. intros. now apply IH. }
    assert (Hl : forall ys t x, (0 < likelihood move 2 t ys x)%R).
    { induction ys as [|y ys IH]; intros t x; cbn [likelihood]; [lra|]. apply Hh. intros. apply Hm. intros. apply IH. }
    unfold L, toy_start. cbn [finite mean map fold_right fst snd]. pose proof (Hl (map seen toy_data) 0 (Fin 0)). pose proof (Hl (map seen toy_data) 0 (Fin 1)). lra.
  - intros w.
    apply (C86_bootstrap R toy_model toy_step toy_noise 1%R toy_start (Fin 0) lowest 3 2 1 (fun _ _ _ => 0%R) (fun f => f) (fun _ _ _ _ => 0) kd toy_conf 2 toy_data 10 0 w).
    + apply finite_ok. unfold Rsum. cbn. lra.
    + apply finite_ok. unfold Rsum. cbn. lra.
    + exists (/ 2)%R. now left.
    + exists (/ 2)%R. now left.
    + intros x [p [H|[H|[]]]]; injection H as <- _; exact I.
    + lia.
    + lia.
    + intros t i [] e H _; try destruct H. exact I.
    + intros t i [] [] H H'; try destruct H; try destruct H'. cbn [obs_logp toy_model]. rewrite normal_logp_gauss by lra. exact I.
    + intros t i [] H; try destruct H. exact I.
    + destruct Hkd as [->| ->]; [left; now exists 2%R|now right].
    + discriminate.
    + cbn. lia.
    + intros y [<-|[<-|[<-|[]]]]; eexists; (split; [reflexivity|]); [left|right|left]; try exact I; reflexivity.
    + cbn. repeat split; intros; exact I.
    + exact I.
    + cbn. lia.
Qed.
