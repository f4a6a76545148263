(** Property C117 (pyfilter/filters/particle/base.py:130-146 _do_sample_fl): the trajectories of the fixed-lag smoother, weighted with
    the weights of the last state, converge to the distribution of the whole path given the observations. *)
From Coq Require Import String Reals List Bool Arith Lia Lra.
From Verif.Model Require Import Base Xf Tensor Weights Resampling Particle FilterLoop Proposal Smoothing.
From Verif.Spec Require Import WeightsSpec ResamplingSpec ParticleSpec LoopSpec GenealogySpec ProposalSpec UnbiasedSpec FairSpec ConvergeSpec AuxiliarySpec PathSpec.
From Verif.Proofs Require Import WeightsProofs MomentsProofs ResamplingProofs ParticleProofs StepProofs LoopProofs ProposalProofs UnbiasedProofs UnbiasedFilter ConvergeProofs ConvergeFilter ConvergeAny PathProofs.
From Verif.Props Require Import GenealogyProps ResamplingProps ResampleMeanProps UnbiasedProps ResampleErrorProps ConvergeProps AuxiliaryProps.
Import ListNotations.
Local Open Scope nat_scope.
Notation length := List.length.

(** The mean of [phi] over the trajectories smooth(method="fl") returns after a run from the initial sample [x0], weighted with [W] of the
    last state. *)
Definition smoothed {X} lowest (W : corr X -> nat -> R) (phi : list X -> R) (o : @oracle X (list xf)) kd cf fuel r ys n b (j : nat) (x0 : tstate X) : R :=
  match initialize lowest n b x0 with
  | Ok s =>
      match batch_filter lowest o kd cf fuel r ys s with
      | Some (Ok (c, _, l)) => match do_sample_fl n b (s :: l) with Ok out => trajectory_mean n j (W c) phi out | Raise _ => 0%R end
      | _ => 0%R
      end
  | Raise _ => 0%R
  end.
(** The normalised weights of the last state; equal weights. *)
Definition last_weights {X} lowest (j : nat) (c : corr X) (i : nat) : R := nth i (imp lowest (col (c_w c) j)) 0%R.
Definition equal_weights {X} (n : nat) (_ : corr X) (_ : nat) : R := (/ INR n)%R.
(** Particles with a present only. *)
Definition newborn_ts {X} (x : tstate X) : tstate (list X) := TS (ts_time x) (map_mat (fun v => [v]) (ts_val x)).

(** The filters for which the smoother follows the ancestors of the particles (C22, C23), with all states recorded. *)
Definition traceable (kd : kind) (cf : fconf) (n : nat) : Prop :=
  (kd = APF \/ exists thr, kd = SISR thr /\ (INR n < thr)%R) /\ (record_intermediary cf = true \/ observe_every cf = 1).
Lemma traceable_follows {X} (z : X) lowest o kd n b cf fuel r ys (s0 : corr X) : 0 < n -> well_behaved o n -> clock o -> state_ok n b s0 ->
  observe_every cf <> 0 -> observe_every cf <= fuel -> traceable kd cf n -> fl_follows_ancestors z lowest o kd n b cf fuel r ys s0.
Proof.
  intros Hn Ho Hc Hs0 Hk Hf [Hkd Hrec].
  assert (Q : forall cf, record_intermediary cf = true -> observe_every cf <> 0 -> observe_every cf <= fuel -> fl_follows_ancestors z lowest o kd n b cf fuel r ys s0).
  { clear cf Hk Hf Hrec. intros cf Hrec Hk Hf. destruct Hkd as [-> |(thr & -> & Hthr)]; [now apply C22_apf_fl_ancestors|].
    apply C23_sisr_fl_ancestors_partial; try assumption. intros c0 r0 l0 E0 s Hs j Hj. left.
    assert (Hok : state_ok n b s).
    { destruct Hs as [<-|Hs]; [exact Hs0|]. exact (batch_states_ok lowest o (SISR thr) cf n b Hn Ho Hk Hc _ _ _ _ _ _ _ Hf Hs0 E0 s Hs). }
    pose proof (W_prob lowest n b s j Hn Hok Hj) as Hp. pose proof (ess_bounds _ Hp) as (Hb & _). cbn zeta in Hb.
    unfold W in Hb. fold (ess_of (imp lowest (col (c_w s) j))) in Hb.
    assert (El : length (imp lowest (col (c_w s) j)) = n).
    { unfold imp. rewrite map_length, length_col. exact (proj1 (so_w _ _ _ Hok)). }
    rewrite El in Hb. lra. }
  destruct Hrec as [Hrec|E1]; [now apply Q|]. destruct cf as [every rec strategy]. cbn [observe_every] in *. subst every.
  intros c r' l Eb. rewrite batch_recording in *. exact (Q (FConf 1 true strategy) eq_refl ltac:(cbn; lia) Hf c r' l Eb).
Qed.

Section Smoothed.
  Context {X U D : Type} (lowest : R) (LU : law (nat -> U)) (LD : law (nat -> D)) (LX : law (tstate X)) (C : @chances X U D) (z : X).
  Context (good : X -> Prop) (usable : list xf -> Prop) (fr : bool -> U -> list xf -> list nat) (fp : D -> nat -> list X -> list X)
    (fx : D -> list xf -> nat -> list X -> list xf -> list xf -> list X) (fw : D -> list xf -> nat -> list X -> list xf -> list xf -> list xf)
    (fg : nat -> list xf -> nat -> list X -> list xf).
  Context (n b j : nat) (kappa G : R) (move : nat -> option (list xf) -> (X -> R) -> X -> R) (movable : nat -> option (list xf) -> (X -> R) -> Prop).
  Context (P H : R) (ahead : list xf -> nat -> X -> R) (kd : kind) (cf : fconf) (fuel : nat) (ys : list (list xf)) (k r : nat) (w : filter_stream U D).
  Notation ys' := (map seen ys).
  Notation every := (observe_every cf).
  Notation K := (steps every 0 ys').

  (** What is asked, beyond the conditions for the convergence of the filter means: *)
  Record smoothing : Prop := {
    smo_filter : converging_any LU LD LX C good usable fr fp fx fw fg n b j kappa G move movable P H ahead kd cf fuel ys k w;
    smo_good : good z;
    smo_each : steady_each LD good usable G n j move movable fp fx fw;
    smo_ahead : kd = APF -> ahead_each LD good usable H n j move movable fx fw ahead;
    smo_kind : traceable kd cf n
  }.
  Notation LX' := (image newborn_ts LX).
  Lemma path_converging : smoothing ->
    converging_any LU LD LX' (past_chances z C) (good_path good) usable fr (past_fp z fp) (past_fx z fx) (past_fw z fw) (past_fg z fg) n b j kappa G
      (along z move) (movable_along good movable) P H (past_ahead z ahead) kd cf fuel ys k w.
  Proof.
    intros [[(HU & HD & HX & PD) Hsep Hsize Hcon Hkd Hfair Hmove Hev Hys Hk Hx0 Hw] Hz Heach Hahead _]. constructor; try assumption.
    - split; [exact HU|]. split; [exact HD|]. split; [now apply image_ok|exact PD].
    - now apply past_separate.
    - destruct Hkd as [(thr & E & Q)|(E & Q1 & Q2 & Q3)]; [left; exists thr; now split|]. right. split; [exact E|]. split; [exact Q1|]. split; [|exact Q3].
      apply past_looks; [exact Q2|now apply Hahead].
    - now apply past_fair.
    - now apply past_steady.
    - intros x' (x0 & Hx & <-). destruct (Hx0 x0 Hx) as (T & [S1 S2] & Gd). split; [exact T|]. split; [now split|].
      intros i q Hi Hq. cbn [newborn_ts ts_val map_mat m_get]. split; [discriminate|]. constructor; [now apply Gd|constructor].
  Qed.
  (** The smoothed mean is the mean over particles that list their own paths. *)
  Lemma smoothed_paths phi x0 w' : smoothing -> supp LX x0 -> possible LU LD w' ->
    smoothed lowest (last_weights lowest j) phi (at_stream C w') kd cf fuel r ys n b j x0 =
    run_mean lowest phi (at_stream (past_chances z C) w') kd cf fuel r ys n b j (newborn_ts x0).
  Proof.
    intros [[(HU & HD & HX & PD) Hsep (Hn & Hj) Hcon Hkd Hfair Hmove (Hev & Hfu) Hys Hk Hx0 Hw] Hz Heach Hahead Htr] Hs Hw'.
    destruct (Hx0 x0 Hs) as (T & Sh & Gd). destruct (initialize_ok lowest n b x0 Hn Sh) as (s & Es & Hok & Ex & _).
    pose proof (stream_behaves LU LD C good usable fr fp fx fw fg Hsep w' n Hn Hw') as Hb. pose proof (stream_clock LU LD C good usable fr fp fx fw fg Hsep w' Hw') as Hc.
    assert (En : initialize lowest n b (newborn_ts x0) = Ok (newborn s)).
    { clear - Es Hn. unfold initialize in *. rewrite mk_corr_spec in * by exact Hn. injection Es as <-. reflexivity. }
    unfold smoothed, run_mean. rewrite Es, En.
    assert (exists c r' l, batch_filter lowest (at_stream C w') kd cf fuel r ys s = Some (Ok (c, r', l))) as (c & r' & l & Eb).
    { destruct ys as [|y ys0]; [now exists s, r, []|].
      destruct (batch_spec lowest (at_stream C w') kd cf n b Hn Hb Hev Hc y ys0 fuel r s Hfu Hok ltac:(rewrite Ex; exact T)) as (c & r' & l & E & _). now exists c, r', l. }
    destruct (traceable_follows z lowest (at_stream C w') kd n b cf fuel r ys s Hn Hb Hc Hok Hev Hfu Htr c r' l Eb) as (cp & lp & out & Ep & Ec & El & Eo & Hp).
    rewrite Eb, Eo. rewrite past_stream, Ep. cbn [last_mean]. unfold trajectory_mean, filter_mean, last_weights. rewrite Ec. cbn [now_state c_w].
    apply (sumto_ext n). intros i Hi. f_equal. f_equal. now apply Hp.
  Qed.
  Lemma newborn_back (x : tstate X) : now_ts z (newborn_ts x) = x.
  Proof. destruct x as [t [a c g]]. reflexivity. Qed.
  Lemma newborn_starts h B m : law_ok LX -> starts LX n j (fun x => h [x]) B m -> starts LX' n j h B m.
  Proof. intros HX Hs. unfold starts in *. apply (image_most newborn_ts (now_ts z)); [exact HX|exact newborn_back|exact Hs]. Qed.

  (** The mean of a bounded function of the path, over the trajectories of the smoother with the weights of the last state: it converges to
      its mean given the observations, [m / l]. *)
  Theorem C117_smoothed_mean phi B m l : smoothing -> (0 <= B)%R -> (forall p, good_path good p -> (Rabs (phi p) <= B)%R) ->
    has_expected (along z move) (movable_along good movable) every phi 0 ys' -> starts LX n j (fun x => expected (along z move) every phi 0 ys' [x]) (G ^ K * B) m ->
    has_expected move movable every (fun _ => 1%R) 0 ys' -> starts LX n j (expected move every (fun _ => 1%R) 0 ys') (G ^ K) l -> (0 < l)%R ->
    at_most_from LX LU LD k r (fun x0 w => square (smoothed lowest (last_weights lowest j) phi (at_stream C w) kd cf fuel r ys n b j x0 - m / l)) w
      (4 * square B * any_rate kappa G K / (square l * INR n))%R.
  Proof.
    intros Hc HB Hphi He Hm He1 Hl Hpos. pose proof (path_converging Hc) as Hp. pose proof (smo_filter Hc) as [(HU & HD & HX & PD) _ _ _ _ _ _ _ _ _ _ Hw].
    destruct (C109_mean lowest LU LD LX' (past_chances z C) (good_path good) usable fr (past_fp z fp) (past_fx z fx) (past_fw z fw) (past_fg z fg) n b j kappa G
      (along z move) (movable_along good movable) P H (past_ahead z ahead) kd cf fuel ys k r w phi B m l Hp HB Hphi He (newborn_starts _ _ _ HX Hm)) as (F & HF & HX').
    - exact (has_expected_now z good move movable every (fun _ => 1%R) ys' 0 He1).
    - apply newborn_starts; [exact HX|]. pose proof (expected_now z move every (fun _ => 1%R) ys' 0) as Q. cbv beta in Q. rewrite Q. exact Hl.
    - exact Hpos.
    - exists (fun x0 => F (newborn_ts x0)). split.
      + intros x0 Hs. pose proof (HF (newborn_ts x0) ltac:(now exists x0)) as Q. refine (over_most_possible LU LD k r _ _ w _ _ Hw _ (Rle_refl _) Q).
        intros w' Hw' _. right. do 2 f_equal. now apply smoothed_paths.
      + destruct HX' as (g & a & Hg & Ha & Hle). exists (fun x0 => g (newborn_ts x0)), a. split; [|split; [exact Ha|exact Hle]].
        intros x0 Hs. apply Hg. now exists x0.
  Qed.
End Smoothed.
Print Assumptions C117_smoothed_mean.

(** * The bootstrap proposal with multinomial resampling *)
Section BootstrapEach.
  Context {E : Type} (M : ssm) (step : nat -> nat -> xf -> E -> xf) (K : law E) (e0 : E) (K0 : law xf) (x00 : xf).
  Variables (lowest : R) (n b j : nat) (G H : R).
  Hypothesis HM : bounded_model M step K e0 K0 x00 G j.
  Hypothesis Hn : 0 < n.
  Hypothesis Hj : j < b.
  Hypothesis HH : (0 < H)%R.
  Notation move := (moves M step K j).
  Notation mov := (movable M step K j).
  Lemma boot_each : steady_each (noise K e0 n b) is_fin number G n j move mov (boot_fp step) (boot_fx step) (boot_fw M step).
  Proof.
    constructor.
    - intros t xs f B a z Lx Gx Hm HB. assert (Gi : forall i, i < n -> is_fin (nth i xs z)) by (intros i Hi; apply (proj1 (Forall_forall _ _) Gx), nth_In; lia).
      pose proof (independent_square K (proj1 (bm_laws _ _ _ _ _ _ _ _ HM)) (fun _ => e0) (base_e M step K e0 K0 x00 j G HM) n n
        (fun i e => next M step j t None (f i) (nth i xs z) e) (fun i => move t None (f i) (nth i xs z)) B a (le_n n)) as Q.
      refine (at_most_weaken _ _ _ _ _ _ (noise_most M step K e0 K0 x00 n b j G HM Hj _ _ (Q _ _)) (Rle_refl _)).
      + intros d Hd. destruct (noise_spec K e0 n b d Hd) as [D1 D2]. right. do 2 f_equal. apply (sumto_ext n). intros i Hi. unfold next. now rewrite (nth_fp step n b j Hn Hj) by (try apply D1; assumption).
      + intros i Hi. split; [apply Hm; [exact Hi|now apply Gi]|reflexivity].
      + intros i x Hi Hx. unfold next. apply HB; [exact Hi|]. apply (bm_step _ _ _ _ _ _ _ _ HM); [now apply Gi|exact Hx].
    - intros y t xs ws nws f B a z Hy Lx Gx Hm HB. assert (Gi : forall i, i < n -> is_fin (nth i xs z)) by (intros i Hi; apply (proj1 (Forall_forall _ _) Gx), nth_In; lia).
      pose proof (independent_square K (proj1 (bm_laws _ _ _ _ _ _ _ _ HM)) (fun _ => e0) (base_e M step K e0 K0 x00 j G HM) n n
        (fun i e => next M step j t (Some y) (f i) (nth i xs z) e) (fun i => move t (Some y) (f i) (nth i xs z)) (G * B) a (le_n n)) as Q.
      refine (at_most_weaken _ _ _ _ _ _ (noise_most M step K e0 K0 x00 n b j G HM Hj _ _ (Q _ _)) (Rle_refl _)).
      + intros d Hd. destruct (noise_spec K e0 n b d Hd) as [D1 D2]. right. do 2 f_equal. apply (sumto_ext n). intros i Hi. unfold next, boot_fw, boot_fx. rewrite D1.
        rewrite (nth_map' _ (boot_fp step (d j) t xs) i NaN z) by (rewrite (length_fp step); lia). now rewrite (nth_fp step n b j Hn Hj) by (try apply D1; assumption).
      + intros i Hi. split; [apply Hm; [exact Hi|now apply Gi]|reflexivity].
      + intros i x Hi Hx. unfold next.
        assert (Gs : is_fin (step t j (nth i xs z) x)) by (apply (bm_step _ _ _ _ _ _ _ _ HM); [now apply Gi|exact Hx]).
        rewrite Rabs_mult. rewrite (Rabs_right (exp _)) by (left; apply exp_pos).
        apply Rmult_le_compat; [left; apply exp_pos|apply Rabs_pos|apply (bm_bound _ _ _ _ _ _ _ _ HM); [exact Gs|exact Hy]|now apply HB].
  Qed.
  Lemma boot_ahead_each : foreseen M step K j H -> ahead_each (noise K e0 n b) is_fin number H n j move mov (boot_fx step) (boot_fw M step) (boot_ahead M j).
  Proof.
    intros Hf y t xs ws nws f B a z Hy Lx Gx Hm HB.
    set (c i := (H * exp (boot_ahead M j y t (nth i xs z)))%R). assert (Hc : forall i, (0 < c i)%R) by (intros i; apply Rmult_lt_0_compat; [lra|apply exp_pos]).
    assert (Gi : forall i, i < n -> is_fin (nth i xs z)) by (intros i Hi; apply (proj1 (Forall_forall _ _) Gx), nth_In; lia).
    pose proof (independent_square K (proj1 (bm_laws _ _ _ _ _ _ _ _ HM)) (fun _ => e0) (base_e M step K e0 K0 x00 j G HM) n n
      (fun i e => / c i * next M step j t (Some y) (f i) (nth i xs z) e)%R (fun i => / c i * move t (Some y) (f i) (nth i xs z))%R B (fun i => a i * c i)%R (le_n n)) as Q.
    refine (at_most_weaken _ _ _ _ _ _ (noise_most M step K e0 K0 x00 n b j G HM Hj _ _ (Q _ _)) (Rle_refl _)).
    - intros d Hd. destruct (noise_spec K e0 n b d Hd) as [D1 D2]. right. f_equal. f_equal.
      + apply (sumto_ext n). intros i Hi. unfold next, boot_fw, boot_fx. rewrite D1.
        rewrite (nth_map' _ (boot_fp step (d j) t xs) i NaN z) by (rewrite (length_fp step); lia). rewrite (nth_fp step n b j Hn Hj) by (try apply D1; assumption). pose proof (Hc i). field. lra.
      + apply (sumto_ext n). intros i Hi. pose proof (Hc i). field. lra.
    - intros i Hi. apply averages_scal; [apply HM|]. split; [apply Hm; [exact Hi|now apply Gi]|reflexivity].
    - intros i x Hi Hx. unfold next. pose proof (Hc i) as Hci.
      assert (Gs : is_fin (step t j (nth i xs z) x)) by (apply (bm_step _ _ _ _ _ _ _ _ HM); [now apply Gi|exact Hx]).
      rewrite !Rabs_mult. rewrite (Rabs_right (/ c i)) by (left; now apply Rinv_0_lt_compat). rewrite (Rabs_right (exp _)) by (left; apply exp_pos).
      pose proof (Hf t (nth i xs z) x (hd NaN y) (Gi i Hi) Hx Hy) as Q1. fold (boot_ahead M j y t (nth i xs z)) in Q1. fold (c i) in Q1.
      pose proof (HB i _ Hi Gs) as Q2. set (p := exp _) in *. assert (0 < p)%R by apply exp_pos. pose proof (Rabs_pos (f i (step t j (nth i xs z) x))) as Q3.
      apply (Rmult_le_reg_l (c i)); [exact Hci|]. rewrite <- Rmult_assoc, Rinv_r, Rmult_1_l by lra. apply Rmult_le_compat; lra.
  Qed.
  Lemma starts_bounded h B : (forall x, is_fin x -> (Rabs (h x) <= B)%R) -> dom K0 h -> starts (initial K0 x00 n b) n j h B (mean K0 h).
  Proof.
    intros HB Hd. unfold starts. pose proof (lt_0_INR n Hn) as Hn0.
    apply (image_most _ (fun (x0 : tstate xf) j i => m_get (ts_val x0) i j)); [exact (OX2 M step K e0 K0 x00 n b j G HM)|reflexivity|]. cbn [ts_val m_get].
    apply (independent_most _ (OX1 M step K e0 K0 x00 n j G HM) _ (SX1 M step K e0 K0 x00 n j G HM) b j (fun z => square (sum_below n (fun i => / INR n * h (z i)) - mean K0 h))%R); [exact Hj|].
    pose proof (independent_square K0 ltac:(apply HM) (fun _ => x00) (base_x M step K e0 K0 x00 j G HM) n n (fun _ x => h x) (fun _ => mean K0 h) B (fun _ => / INR n)%R (le_n n)) as Q.
    cbv beta in Q. rewrite (sumto_const n (/ INR n * mean K0 h)), (sumto_const n (square (/ INR n))) in Q. refine (at_most_weaken _ _ _ _ _ _ (Q _ _) _).
    - intros q _. right. replace (INR n * (/ INR n * mean K0 h))%R with (mean K0 h) by (field; lra). reflexivity.
    - intros i Hi. now split.
    - intros i x Hi Hx. apply (bm_start _ _ _ _ _ _ _ _ HM) in Hx. now apply HB.
    - right. unfold square. field. lra.
  Qed.
End BootstrapEach.

(** Bootstrap SISR resampling at every step, or the auxiliary particle filter, with multinomial resampling. *)
Theorem C117_bootstrap : forall (E : Type) (M : ssm) step (K : law E) e0 (K0 : law xf) x00 lowest n b j G H normals autodiff pick kd cf fuel ys k r w (phi : list xf -> R) B,
  bounded_model M step K e0 K0 x00 G j -> 0 < n -> j < b -> (1 <= G /\ 1 <= H)%R ->
  (exists thr, kd = SISR thr /\ (INR n < thr)%R) \/ (kd = APF /\ foreseen M step K j H) ->
  observe_every cf <> 0 /\ observe_every cf <= fuel -> record_intermediary cf = true \/ observe_every cf = 1 ->
  (forall y, In y ys -> exists v, y = [v] /\ (is_fin v \/ v = NaN)) ->
  (0 <= B)%R -> (forall p, p <> [] -> Forall is_fin p -> (Rabs (phi p) <= B)%R) ->
  let ys' := map seen ys in
  let move := moves M step K j in
  let m x := expected (along (Fin 0) move) (observe_every cf) phi 0 ys' [x] in
  let l x := expected move (observe_every cf) (fun _ => 1%R) 0 ys' x in
  has_expected (along (Fin 0) move) (movable_along is_fin (movable M step K j)) (observe_every cf) phi 0 ys' -> dom K0 m ->
  has_expected move (movable M step K j) (observe_every cf) (fun _ => 1%R) 0 ys' -> dom K0 l -> (0 < mean K0 l)%R ->
  draws (observe_every cf) 0 ys' <= k -> possible (uniforms n b) (noise K e0 n b) w ->
  let C := multinomial_chances M step lowest normals autodiff pick in
  at_most_from (initial K0 x00 n b) (uniforms n b) (noise K e0 n b) k r
    (fun x0 w => square (smoothed lowest (last_weights lowest j) phi (at_stream C w) kd cf fuel r ys n b j x0 - mean K0 m / mean K0 l)) w
    (4 * square B * any_rate 1 (G * H) (steps (observe_every cf) 0 ys') / (square (mean K0 l) * INR n))%R.
Proof.
  intros E M step K e0 K0 x00 lowest n b j G H normals autodiff pick kd cf fuel ys k r w phi B HM Hn Hj (HG & HH) Hkd Hev Hrec Hys HB Hphi ys' move m l He Hd He1 Hd1 Hpos Hk Hw C.
  pose proof (HM' M step K e0 K0 x00 j G H HM HG HH) as HM2. assert (HGH : (1 <= G * H)%R) by nra.
  assert (Hphi' : forall p, good_path is_fin p -> (Rabs (phi p) <= B)%R) by (intros p [P1 P2]; now apply Hphi).
  assert (Hsm : smoothing (uniforms n b) (noise K e0 n b) (initial K0 x00 n b) C (Fin 0) is_fin number (boot_fr lowest) (boot_fp step) (boot_fx step) (boot_fw M step) (boot_fg M)
    n b j 1 (G * H) move (movable M step K j) G H (boot_ahead M j) kd cf fuel ys k w).
  { constructor.
    - apply (boot_any M step K e0 K0 x00); try assumption. destruct Hkd as [(thr & -> & _)|Q]; [left; now exists thr|now right].
    - exact I.
    - exact (boot_each M step K e0 K0 x00 n b j (G * H) HM2 Hn Hj).
    - intros ->. destruct Hkd as [(thr & Q & _)|(_ & Q)]; [discriminate|]. apply (boot_ahead_each M step K e0 K0 x00 n b j G H HM Hn Hj ltac:(lra) Q).
    - split; [|exact Hrec]. destruct Hkd as [Q|(-> & _)]; [now right|now left]. }
  pose proof (path_converging (uniforms n b) (noise K e0 n b) (initial K0 x00 n b) C (Fin 0) is_fin number (boot_fr lowest) (boot_fp step) (boot_fx step) (boot_fw M step) (boot_fg M)
    n b j 1 (G * H) move (movable M step K j) G H (boot_ahead M j) kd cf fuel ys k w Hsm) as [(QU & QD & QX & QP) Qs _ _ _ Qf Qm _ Qy _ _ _].
  refine (C117_smoothed_mean lowest _ _ _ C (Fin 0) is_fin number (boot_fr lowest) (boot_fp step) (boot_fx step) (boot_fw M step) (boot_fg M) n b j 1 (G * H) move (movable M step K j) G H
    (boot_ahead M j) kd cf fuel ys k r w phi B (mean K0 m) (mean K0 l) Hsm HB Hphi' He _ He1 _ Hpos).
  - apply (starts_bounded M step K e0 K0 x00 n b j (G * H) HM2 Hn Hj); [|exact Hd]. intros x Hx.
    apply (expected_bound (uniforms n b) (noise K e0 n b) QD QP _ (boot_fr lowest) _ _ _ _ (good_path is_fin) number Qs n b j Hn Hj (G * H) HGH _ _ Qf Qm [] cf (proj1 Hev) phi B HB Hphi' w ys 0);
      [now apply Forall_forall|exact He|]. split; [discriminate|]. constructor; [exact Hx|constructor].
  - pose proof (boot_starts M step K e0 K0 x00 lowest n b j (G * H) HM2 Hn Hj HGH normals autodiff pick cf fuel ys w Hev Hys (fun _ => 1%R) 1 ltac:(lra) ltac:(intros; right; exact Rabs_R1)) as Q.
    rewrite Rmult_1_r in Q. now apply Q.
Qed.
Print Assumptions C117_bootstrap.

(** The process of C109 of which only the sign is observed. *)
Lemma sign_density v z : exists q, sign_logp (Fin v) (Fin z) = Fin q /\ (1 / 4 <= exp q <= 3 / 4)%R.
Proof. eexists. split; [reflexivity|]. rewrite exp_ln by (destruct (Rlt_dec 0 (v * z)); lra). destruct (Rlt_dec 0 (v * z)); lra. Qed.
Lemma sign_bounded j : bounded_model sign_model toy_step toy_noise 1%R toy_start (Fin 0) 1 j.
Proof.
  constructor.
  - split; [apply finite_ok; unfold Rsum; cbn; lra|]. split; [apply finite_pos; intros q [<-|[<-|[]]]; cbn; lra|].
    split; [apply finite_ok; unfold Rsum; cbn; lra|]. split; exists (/ 2)%R; now left.
  - intros x [p [H|[H|[]]]]; injection H as <- _; exact I.
  - intros t i [] e H _; try destruct H. exact I.
  - intros t i [v| | |] [z| | |] H H'; try destruct H; try destruct H'. exact I.
  - intros t i [] H; try destruct H. exact I.
  - intros t [v| | |] [z| | |] H H'; try destruct H; try destruct H'. cbn [obs_logp sign_model]. destruct (sign_density v z) as (q & -> & Hq). cbn [real_of]. lra.
Qed.
Lemma sign_foreseen j : foreseen sign_model toy_step toy_noise j 3.
Proof.
  intros t [v| | |] e [z| | |] H _ H'; try destruct H; try destruct H'. unfold toy_step. cbn [obs_logp sign_model mean_scale fst xmul xadd].
  destruct (sign_density (/ 2 * v + e)%R z) as (q & -> & Hq). destruct (sign_density (/ 2 * v)%R z) as (q' & -> & Hq'). cbn [real_of]. lra.
Qed.

(** * The trajectories without their weights *)
(** The smoother returns the trajectories without resampling them, and nothing in them depends on the last observation if the particles are
    proposed without looking at it: it enters only through the weights. *)
Lemma batch_last {X} lowest (o : @oracle X (list xf)) k cf fuel ys y : forall r s,
  batch_filter lowest o k cf fuel r (ys ++ [y]) s =
  match batch_filter lowest o k cf fuel r ys s with
  | Some (Ok (c, r', l)) =>
      match filter_step lowest o k cf fuel r' y c with
      | Some (Ok (c', r'', l')) => Some (Ok (c', r'', l ++ l'))
      | other => other
      end
  | other => other
  end.
Proof.
  induction ys as [|y0 ys IH]; intros r s; cbn [app batch_filter].
  - destruct (filter_step lowest o k cf fuel r y s) as [[[[c r'] l]|]|]; try reflexivity. now rewrite app_nil_r.
  - destruct (filter_step lowest o k cf fuel r y0 s) as [[[[c r'] l]|]|]; try reflexivity. rewrite IH.
    destruct (batch_filter lowest o k cf fuel r' ys c) as [[[[c1 r1] l1]|]|]; try reflexivity.
    destruct (filter_step lowest o k cf fuel r1 y c1) as [[[[c2 r2] l2]|]|]; try reflexivity. now rewrite app_assoc.
Qed.
Lemma fl_last {X} n b (l : list (corr X)) c c' : c_x c = c_x c' -> c_inds c = c_inds c' -> do_sample_fl n b (l ++ [c]) = do_sample_fl n b (l ++ [c']).
Proof.
  intros Ex Ei. unfold do_sample_fl. rewrite !rev_app_distr. cbn [rev app]. rewrite Ex.
  destruct (rev l) as [|s rest]; cbn [fl_loop]; [reflexivity|]. now rewrite Ei.
Qed.
(** For SISR with any threshold. *)
Theorem C117_last_observation_unused : forall X lowest (o : @oracle X (list xf)) thr cf fuel r n b ys y y' (s0 : corr X),
  (forall r y y' x w nw, fst (sample_and_weight o r y x w nw) = fst (sample_and_weight o r y' x w nw)) ->
  missing y = false -> missing y' = false ->
  forall c l r1 c' l' r1', batch_filter lowest o (SISR thr) cf fuel r (ys ++ [y]) s0 = Some (Ok (c, r1, l)) ->
    batch_filter lowest o (SISR thr) cf fuel r (ys ++ [y']) s0 = Some (Ok (c', r1', l')) ->
    do_sample_fl n b (s0 :: l) = do_sample_fl n b (s0 :: l').
Proof.
  intros X lowest o thr cf fuel r n b ys y y' s0 Hblind Hy Hy' c l r1 c' l' r1' E E'.
  rewrite batch_last in E, E'. destruct (batch_filter lowest o (SISR thr) cf fuel r ys s0) as [[[[c1 q] l1]|]|]; try discriminate.
  unfold filter_step in E, E'. rewrite Hy in E. rewrite Hy' in E'.
  destruct (predict lowest o (SISR thr) q c1) as [p|]; try discriminate.
  destruct (advance lowest o (SISR thr) cf fuel (S q) p) as [[[[p' q'] sk]|]|]; try discriminate.
  cbn [correct] in E, E'. unfold sisr_correct in E, E'. pose proof (Hblind q' y y' (p_x p') (p_w p') (p_nw p')) as Hb.
  destruct (sample_and_weight o q' y (p_x p') (p_w p') (p_nw p')) as [x v]. destruct (sample_and_weight o q' y' (p_x p') (p_w p') (p_nw p')) as [x' v']. cbn [fst] in Hb. subst x'.
  destruct (loglik_mat v (Some (p_nw p'))) as [ll|]; cbn [bind] in E; try discriminate. destruct (loglik_mat v' (Some (p_nw p'))) as [ll'|]; cbn [bind] in E'; try discriminate.
  unfold mk_corr in E, E'. destruct (normalize_mat lowest (zip_mat xadd v (p_w p'))) as [[a1 a2]|]; cbn [bind] in E; try discriminate.
  destruct (normalize_mat lowest (zip_mat xadd v' (p_w p'))) as [[a1' a2']|]; cbn [bind] in E'; try discriminate.
  injection E as <- _ <-. injection E' as <- _ <-. rewrite !app_comm_cons, !app_assoc. now apply fl_last.
Qed.
Print Assumptions C117_last_observation_unused.

(** So the plain average over the trajectories is not an estimate of the mean given the observations: the process of which only the sign is
    observed, right three times out of four, with one observation.  The probability that the value is positive is 3/4 after observing 1 and
    1/4 after observing -1; the smoother returns the same trajectories in both cases. *)
Definition ends_positive (p : list xf) : R := positive (last p NaN).
Theorem C117_equal_weights_refuted : forall lowest thr rec,
  let move := moves sign_model toy_step toy_noise 0 in
  let h v f := mean toy_start (fun x => expected (along (Fin 0) move) 1 f 0 (map seen [[Fin v]]) [x]) in
  let C := multinomial_chances sign_model toy_step lowest (fun _ _ _ => 0%R) (fun f => f) (fun _ _ _ _ => 0) in
  (h 1 ends_positive / h 1 (fun _ => 1) = 3 / 4)%R /\ (h (-1) ends_positive / h (-1) (fun _ => 1) = 1 / 4)%R /\
  forall n x0 w, 0 < n -> supp (initial toy_start (Fin 0) n 1) x0 -> possible (uniforms n 1) (noise toy_noise 1%R n 1) w ->
    let plain v := smoothed lowest (equal_weights n) ends_positive (at_stream C w) (SISR thr) (FConf 1 rec "skip"%string) 1 0 [[Fin v]] n 1 0 x0 in
    (1 / 4 <= Rabs (plain 1 - 3 / 4))%R \/ (1 / 4 <= Rabs (plain (-1) - 1 / 4))%R.
Proof.
  intros lowest thr rec move h C.
  assert (Hv : forall v f, h v f = (/ 2 * (/ 2 * (exp (real_of (sign_logp (Fin 1) (Fin v))) * f [Fin 0; Fin 1]) + / 2 * (exp (real_of (sign_logp (Fin (-1)) (Fin v))) * f [Fin 0; Fin (-1)])) +
     / 2 * (/ 2 * (exp (real_of (sign_logp (Fin (3 / 2)) (Fin v))) * f [Fin 1; Fin (3 / 2)]) + / 2 * (exp (real_of (sign_logp (Fin (- (1 / 2))) (Fin v))) * f [Fin 1; Fin (- (1 / 2))])))%R).
  { intros v f. unfold h, toy_start. cbn [finite mean map fold_right fst snd seen forallb xisnan andb]. unfold seen. cbn [forallb andb].
    cbn [expected]. replace (until 1 0) with 0 by reflexivity. cbn [hops Nat.add]. unfold along, move, moves, next. cbn [last app].
    unfold toy_noise. cbn [finite mean map fold_right fst snd hd obs_logp sign_model]. unfold toy_step. cbn [xmul xadd].
    replace (/ 2 * 0 + 1)%R with 1%R by lra. replace (/ 2 * 0 + - (1))%R with (-1)%R by lra. replace (/ 2 * 1 + 1)%R with (3 / 2)%R by lra. replace (/ 2 * 1 + - (1))%R with (- (1 / 2))%R by lra. unfold Rsum. cbn [map fold_right]. ring. }
  assert (Hs : forall a v, (0 < a * v)%R -> exp (real_of (sign_logp (Fin a) (Fin v))) = (3 / 4)%R).
  { intros a v Q. unfold sign_logp. destruct (Rlt_dec 0 (a * v)); [|lra]. cbn [real_of]. apply exp_ln. lra. }
  assert (Ht : forall a v, ~ (0 < a * v)%R -> exp (real_of (sign_logp (Fin a) (Fin v))) = (1 / 4)%R).
  { intros a v Q. unfold sign_logp. destruct (Rlt_dec 0 (a * v)); [lra|]. cbn [real_of]. apply exp_ln. lra. }
  assert (Hp : forall a, (0 < a)%R -> positive (Fin a) = 1%R) by (intros a Q; unfold positive; destruct (Rlt_dec 0 a); lra).
  assert (Hq : forall a, ~ (0 < a)%R -> positive (Fin a) = 0%R) by (intros a Q; unfold positive; destruct (Rlt_dec 0 a); lra).
  split; [|split].
  - rewrite !Hv. unfold ends_positive. cbn [last]. rewrite (Hs 1%R), (Ht (-1)%R), (Hs (3 / 2)%R), (Ht (- (1 / 2))%R) by lra. rewrite (Hp 1%R), (Hq (-1)%R), (Hp (3 / 2)%R), (Hq (- (1 / 2))%R) by lra. field.
  - rewrite !Hv. unfold ends_positive. cbn [last]. rewrite (Ht 1%R), (Hs (-1)%R), (Ht (3 / 2)%R), (Hs (- (1 / 2))%R) by lra. rewrite (Hp 1%R), (Hq (-1)%R), (Hp (3 / 2)%R), (Hq (- (1 / 2))%R) by lra. field.
  - intros n x0 w Hn Hx Hw plain.
    assert (Ee : plain 1%R = plain (-1)%R); [|rewrite Ee; destruct (Rle_dec (/ 2) (plain (-1)%R)); [right; rewrite Rabs_right by lra; lra|left; rewrite Rabs_left by lra; lra]].
    destruct Hx as (q & Hq0 & <-). set (x0 := TS 0 _) in *. assert (Sh : shaped (ts_val x0) n 1) by now split.
    destruct (initialize_ok lowest n 1 x0 Hn Sh) as (s & Es & Hok & Ex & _).
    assert (HM : bounded_model sign_model toy_step toy_noise 1%R toy_start (Fin 0) 1 0) by exact (sign_bounded 0).
    pose proof (boot_separate sign_model toy_step toy_noise 1%R toy_start (Fin 0) lowest n 1 0 1 HM Hn ltac:(lia) (fun _ _ _ => 0%R) (fun f => f) (fun _ _ _ _ => 0)) as Hsep. fold C in Hsep.
    pose proof (stream_behaves _ _ C _ _ _ _ _ _ _ Hsep w n Hn Hw) as Hb. pose proof (stream_clock _ _ C _ _ _ _ _ _ _ Hsep w Hw) as Hc.
    assert (Hrun : forall v, exists c r' l, batch_filter lowest (at_stream C w) (SISR thr) (FConf 1 rec "skip"%string) 1 0 [[Fin v]] s = Some (Ok (c, r', l))).
    { intros v. destruct (batch_spec lowest (at_stream C w) (SISR thr) (FConf 1 rec "skip"%string) n 1 Hn Hb ltac:(discriminate) Hc [Fin v] [] 1 0 s (le_n 1) Hok ltac:(rewrite Ex; reflexivity)) as (c & r' & l & E & _). now exists c, r', l. }
    destruct (Hrun 1%R) as (c & r1 & l & E). destruct (Hrun (-1)%R) as (c' & r1' & l' & E').
    pose proof (C117_last_observation_unused xf lowest (at_stream C w) thr (FConf 1 rec "skip"%string) 1 0 n 1 [] [Fin 1] [Fin (-1)] s ltac:(reflexivity) eq_refl eq_refl c l r1 c' l' r1' E E') as Q.
    unfold plain, smoothed. rewrite Es, E, E', Q. reflexivity.
Qed.
Print Assumptions C117_equal_weights_refuted.

(** Two auxiliary particle filters, or SISR filters that resample at every step, run side by side: whether the initial value of the process
    was positive, given three observations. *)
Definition began_positive (p : list xf) : R := positive (hd NaN p).
Example C117_nonvacuous : forall lowest n kd, 0 < n -> (exists thr, kd = SISR thr /\ (INR n < thr)%R) \/ kd = APF ->
  let move := moves sign_model toy_step toy_noise 1 in
  let m x := expected (along (Fin 0) move) 2 began_positive 0 (map seen toy_data) [x] in
  let l x := expected move 2 (fun _ => 1%R) 0 (map seen toy_data) x in
  let C := multinomial_chances sign_model toy_step lowest (fun _ _ _ => 0%R) (fun f => f) (fun _ _ _ _ => 0) in
  let w := fun _ => ((fun _ _ => / 2)%R, fun k => (k, fun _ : nat => 1%R)) in
  (0 < mean toy_start m < mean toy_start l)%R /\
  at_most_from (initial toy_start (Fin 0) n 2) (uniforms n 2) (noise toy_noise 1%R n 2) 10 0
    (fun x0 w => square (smoothed lowest (last_weights lowest 1) began_positive (at_stream C w) kd toy_conf 2 0 toy_data n 2 1 x0 - mean toy_start m / mean toy_start l))%R w
    (4 * square 1 * any_rate 1 (1 * 3) 5 / (square (mean toy_start l) * INR n))%R.
Proof.
  intros lowest n kd Hn Hkd move m l C w.
  assert (Hmul : forall t y F f, (forall p, p <> [] -> F p = positive (hd NaN p) * f (last p (Fin 0)))%R -> forall p, p <> [] -> (along (Fin 0) move t y F p = positive (hd NaN p) * move t y f (last p (Fin 0)))%R).
  { intros t y F f HF p Hp. unfold along, move, moves, next. unfold toy_noise. cbn [finite mean map fold_right fst snd].
    assert (Ha : forall x, F (p ++ [x]) = (positive (hd NaN p) * f x)%R).
    { intros x. rewrite HF by (now destruct p). rewrite last_last. destruct p; [congruence|reflexivity]. }
    destruct y as [y|]; rewrite !Ha; unfold Rsum; cbn [map fold_right]; ring. }
  assert (Hhop : forall a t F f, (forall p, p <> [] -> F p = positive (hd NaN p) * f (last p (Fin 0)))%R -> forall p, p <> [] -> (hops (along (Fin 0) move) a t F p = positive (hd NaN p) * hops move a t f (last p (Fin 0)))%R).
  { induction a as [|a IH]; intros t F f HF p Hp; cbn [hops]; [now apply HF|]. apply Hmul; [|exact Hp]. now apply IH. }
  assert (Hexp : forall ys t p, p <> [] -> (expected (along (Fin 0) move) 2 began_positive t ys p = positive (hd NaN p) * expected move 2 (fun _ => 1) t ys (last p (Fin 0)))%R).
  { induction ys as [|y ys IH]; intros t p Hp; cbn [expected]; [unfold began_positive; ring|]. apply Hhop; [|exact Hp]. apply Hmul, IH. }
  assert (Hpos : forall t y f, (forall x, 0 < f x)%R -> forall x, (0 < move t y f x)%R).
  { intros t y f Hf x. unfold move, moves, next, toy_noise. cbn [finite mean map fold_right fst snd]. destruct y as [y|]; unfold Rsum; cbn [map fold_right].
    - set (p1 := exp _). set (p2 := exp _). assert (0 < p1)%R by apply exp_pos. assert (0 < p2)%R by apply exp_pos. set (a1 := f _) in *. set (a2 := f _).
      assert (0 < a1)%R by apply Hf. assert (0 < a2)%R by apply Hf. nra.
    - set (a1 := f _) in *. set (a2 := f _). assert (0 < a1)%R by apply Hf. assert (0 < a2)%R by apply Hf. nra. }
  assert (Hph : forall a t f, (forall x, 0 < f x)%R -> forall x, (0 < hops move a t f x)%R).
  { induction a as [|a IH]; intros t f Hf x; cbn [hops]; [apply Hf|]. apply Hpos. intros x'. now apply IH. }
  assert (Hpe : forall ys t x, (0 < expected move 2 (fun _ => 1) t ys x)%R).
  { induction ys as [|y ys IH]; intros t x; cbn [expected]; [lra|]. apply Hph, Hpos, IH. }
  assert (H0 : (0 < mean toy_start m < mean toy_start l)%R).
  { unfold m, l, toy_start. cbn [finite mean map fold_right fst snd]. rewrite !Hexp by discriminate. cbn [hd last]. unfold positive.
    destruct (Rlt_dec 0 0); [lra|]. destruct (Rlt_dec 0 1); [|lra]. pose proof (Hpe (map seen toy_data) 0 (Fin 0)). pose proof (Hpe (map seen toy_data) 0 (Fin 1)). unfold Rsum. cbn [map fold_right]. lra. }
  split; [exact H0|].
  apply (C117_bootstrap R sign_model toy_step toy_noise 1%R toy_start (Fin 0) lowest n 2 1 1 3 (fun _ _ _ => 0%R) (fun f => f) (fun _ _ _ _ => 0) kd toy_conf 2 toy_data 10 0 w began_positive 1);
    try assumption; try lia; try lra.
  - exact (sign_bounded 1).
  - destruct Hkd as [Q| ->]; [now left|]. right. split; [reflexivity|]. exact (sign_foreseen 1).
  - split; cbn; lia.
  - now left.
  - intros y [<-|[<-|[<-|[]]]]; eexists; (split; [reflexivity|]); [left|right|left]; try exact I; reflexivity.
  - intros p _ _. unfold began_positive, positive. destruct (hd NaN p) as [v| | |]; try (rewrite Rabs_R0; lra). destruct (Rlt_dec 0 v); rewrite ?Rabs_R1, ?Rabs_R0; lra.
  - cbn. repeat split; repeat intro; exact I.
  - exact I.
  - cbn. repeat split; repeat intro; exact I.
  - exact I.
  - apply Rlt_trans with (mean toy_start m); apply H0.
  - cbn. lia.
  - intros i. split.
    + apply supp_independent. intros q. apply supp_independent. intros q'. cbn. lra.
    + exists (fun _ _ => 1%R). split; [|reflexivity]. apply supp_independent. intros q. apply supp_independent. intros q'. exists (/ 2)%R. now left.
Qed.
Print Assumptions C117_nonvacuous.
