(** Property C111 (pyfilter/filters/particle/state.py:173-174): the paths simulated onwards from the particles of a state, with the weights of
    that state, give the predictive distribution. *)
From Coq Require Import String Reals List Bool Arith Lia Lra.
From Coquelicot Require Import Coquelicot.
From Verif.Model Require Import Base Xf Tensor Weights Resampling Particle FilterLoop Proposal Forecast.
From Verif.Spec Require Import WeightsSpec ResamplingSpec ParticleSpec LoopSpec ProposalSpec UnbiasedSpec FairSpec ConvergeSpec AuxiliarySpec ForecastSpec.
From Verif.Proofs Require Import WeightsProofs MomentsProofs ResamplingProofs ParticleProofs StepProofs ProposalProofs UnbiasedProofs UnbiasedFilter ConvergeProofs ConvergeFilter ConvergeAny ForecastProofs.
From Verif.Props Require Import ResamplingProps ResampleMeanProps UnbiasedProps ResampleErrorProps ConvergeProps AuxiliaryProps.
Import ListNotations.
Local Open Scope nat_scope.
Notation length := List.length.

(** Filter the data, then simulate [num_steps] steps onwards from the last state, with the draws that come next. *)
Definition run_path {X A} lowest (o : @oracle X (list xf)) kd cf fuel r ys n b (x0 : tstate X) num_steps (read : corr X -> list (tstate X) -> A) (none : A) : A :=
  match initialize lowest n b x0 with
  | Ok s => match batch_filter lowest o kd cf fuel r ys s with
            | Some (Ok (c, r', _)) => read c (predict_path o r' num_steps c)
            | _ => none
            end
  | Raise _ => none
  end.
(** The mean of [phi], [i + 1] steps ahead, with the weights of the last state. *)
Definition run_forecast {X} lowest (phi : X -> R) (o : @oracle X (list xf)) kd cf fuel r ys n b j x0 num_steps i : R :=
  run_path lowest o kd cf fuel r ys n b x0 num_steps (fun c path => forecast_mean lowest n j phi c path i) 0%R.
(** ... with equal weights. *)
Definition run_plain {X} lowest (phi : X -> R) (o : @oracle X (list xf)) kd cf fuel r ys n b j x0 num_steps i : R :=
  run_path lowest o kd cf fuel r ys n b x0 num_steps (fun _ path => plain_mean n j phi path i) 0%R.

(** The constant: as for filtering, plus the spread of the simulated paths. *)
Definition forecast_rate (kappa G : R) (K i : nat) : R := (2 * (2 * square (INR (S i)) * square (G ^ K) + 3 * any_rate kappa G K))%R.

Section Forecast.
  Context {X U D : Type} (lowest : R) (LU : law (nat -> U)) (LD : law (nat -> D)) (LX : law (tstate X)) (C : @chances X U D).
  Context (good : X -> Prop) (usable : list xf -> Prop) (fr : bool -> U -> list xf -> list nat) (fp : D -> nat -> list X -> list X)
    (fx : D -> list xf -> nat -> list X -> list xf -> list xf -> list X) (fw : D -> list xf -> nat -> list X -> list xf -> list xf -> list xf)
    (fg : nat -> list xf -> nat -> list X -> list xf).
  Context (n b j : nat) (kappa G : R) (move : nat -> option (list xf) -> (X -> R) -> X -> R) (movable : nat -> option (list xf) -> (X -> R) -> Prop).
  Context (P H : R) (ahead : list xf -> nat -> X -> R) (kd : kind).
  Context (cf : fconf) (fuel : nat) (ys : list (list xf)) (k r : nat) (w : filter_stream U D).
  Notation converging k := (converging_any LU LD LX C good usable fr fp fx fw fg n b j kappa G move movable P H ahead kd cf fuel ys k w).
  Notation ys' := (map seen ys).
  Notation every := (observe_every cf).
  Notation K := (steps every 0 ys').
  Notation N := (draws every 0 ys').
  Notation est := (fun x0 w => run_estimate lowest (at_stream C w) kd cf fuel r ys n b j x0).
  Notation avg phi := (fun x0 w => run_mean lowest phi (at_stream C w) kd cf fuel r ys n b j x0).
  Notation forecast phi := (fun num_steps i x0 w => run_forecast lowest phi (at_stream C w) kd cf fuel r ys n b j x0 num_steps i).

  Lemma enough k' : converging k -> N <= k' -> converging k'.
  Proof. intros [A1 A2 A3 A4 A5 A6 A7 A8 A9 A10 A11 A12] Hk. now constructor. Qed.

  Lemma weighted_bound (W : list R) (f : nat -> R) B : prob_vec W -> length W = n -> (forall i, i < n -> (Rabs (f i) <= B)%R) -> (Rabs (sumto n (fun i => nth i W 0 * f i)) <= B)%R.
  Proof.
    intros HW LW A.
    assert (S1 : sumto n (fun i => B * nth i W 0)%R = B) by (rewrite sumto_scal, <- LW, <- Rsum_nth, (proj2 HW); ring).
    assert (S2 : sumto n (fun i => - B * nth i W 0)%R = (- B)%R) by (rewrite sumto_scal, <- LW, <- Rsum_nth, (proj2 HW); ring).
    assert (Hp : forall i, i < n -> (0 <= nth i W 0)%R) by (intros i Hi; apply HW, nth_In; lia).
    apply Rabs_le. split; [rewrite <- S2|rewrite <- S1]; apply sumto_le; intros i Hi; pose proof (proj1 (Rabs_le_between _ _) (A i Hi)) as Q; specialize (Hp i Hi); nra.
  Qed.

  (** The forecast [i + 1] steps ahead of a bounded quantity converges to its mean given the observations: [m], the average of the quantity at that
      time times the likelihood of the observations, over [l], the likelihood. *)
  Theorem C111_forecast phi B m l num_steps i : converging k -> i < num_steps -> N + S i <= k -> (0 <= B)%R -> (forall x, good x -> (Rabs (phi x) <= B)%R) ->
    let psi := hops move (S i) K phi in hoppable move movable (S i) K phi ->
    has_expected move movable every psi 0 ys' -> starts LX n j (expected move every psi 0 ys') (G ^ K * B) m ->
    has_expected move movable every (fun _ => 1%R) 0 ys' -> starts LX n j (expected move every (fun _ => 1%R) 0 ys') (G ^ K) l -> (0 < l)%R ->
    at_most_from LX LU LD k r (fun x0 w => square (forecast phi num_steps i x0 w - m / l)) w (square B * forecast_rate kappa G K i / (square l * INR n))%R.
  Proof.
    intros Hc0 Hi Hk HB Hphi psi Hh He Hm He1 Hl Hpos. pose proof (enough N Hc0 (le_n _)) as Hc.
    pose proof Hc as [(HU & HD & HX & PD) Hsep (Hn & Hj) (Hka & HG) Hkd Hfair Hmove (Hev & Hfuel) Hys _ Hx0 Hw]. pose proof (lt_0_INR n Hn) as Hn0.
    assert (Hpsi : forall x, good x -> (Rabs (psi x) <= B)%R).
    { intros x Hx. exact (drifts_bound LU LD HD PD C fr fp fx fw fg good usable Hsep n b j Hn Hj move movable Hfair x w (S i) K phi B Hh Hphi x Hx). }
    destruct (C109_likelihood lowest _ _ _ _ _ _ _ _ _ _ _ _ _ _ _ _ _ _ _ _ _ _ _ _ _ _ r _ l Hc He1 Hl) as (F1 & HF1 & HX1).
    destruct (any_weighted_error lowest _ _ _ _ _ _ _ _ _ _ _ _ _ _ _ _ _ _ _ _ _ _ _ _ _ _ r _ psi B m Hc HB Hpsi He Hm) as (F2 & HF2 & HX2).
    set (z := (2 / square l)%R). assert (Hz : (0 < z)%R) by (apply Rmult_lt_0_compat; [lra|apply Rinv_0_lt_compat; unfold square; nra]).
    pose proof (square_nonneg B) as HB2.
    set (extra := (2 * (square (INR (S i)) * (square (G ^ K) / INR n * square B)))%R).
    exists (fun x0 => 2 * z * F2 x0 + z * square B * F1 x0 + z * extra)%R. split.
    2: { pose proof (at_most_affine LX HX 1 (z * extra) _ _ ltac:(lra) (at_most_lin LX HX (2 * z) (z * square B) _ _ _ _ ltac:(lra) ltac:(nra) HX2 HX1)) as Q.
      refine (at_most_weaken LX _ _ _ _ _ Q _); [intros x0 _; right; ring|]. right. unfold forecast_rate, extra, z. field. split; [lra|]. unfold square. nra. }
    intros x0 Hs. destruct (Hx0 x0 Hs) as (T & Sh & Gd). destruct (initialize_ok lowest n b x0 Hn Sh) as (s & Es & Hok & Ex & _ & _ & Ew).
    assert (Hso : sok good n b s) by (split; [exact Hok|rewrite Ex; exact Gd]).
    assert (T' : ts_time (c_x s) = 0) by (rewrite Ex; exact T).
    assert (Esq : sq lowest n j s = (/ INR n)%R).
    { assert (Ei : imp lowest (col (c_w s) j) = repeat (/ INR n)%R n).
      { rewrite (Ew j). replace (repeat (Fin 0) n) with (map Fin (repeat 0%R n)) by now rewrite map_repeat'. rewrite imp_fin, map_repeat', exp_0. unfold normal.
        rewrite map_repeat'. f_equal. rewrite Rsum_repeat. field. apply not_0_INR. lia. }
      unfold sq, bulk. rewrite Ei. rewrite (sumto_ext n _ (fun _ => square (/ INR n))).
      - rewrite sumto_const. unfold square. field. lra.
      - intros q Hq. f_equal. apply (repeat_spec n (/ INR n)%R). apply nth_In. now rewrite repeat_length. }
    pose proof (over_most_lin LU LD HU HD N r _ _ w _ _ (2 * z) (z * square B) ltac:(lra) ltac:(nra) (HF2 x0 Hs) (HF1 x0 Hs)) as Q1.
    pose proof (over_most_lin LU LD HU HD N r _ (fun _ => (z * extra)%R) w _ (z * extra)%R 1 1 ltac:(lra) ltac:(lra) Q1
      ltac:(apply over_most_const; [exact HU|exact HD|intros; apply Rle_refl])) as Q2. clear Q1.
    rewrite !Rmult_1_l in Q2.
    replace k with (N + (k - N)) by lia. refine (over_most_app LU LD (k - N) N r _ _ w _ Hw Q2 _). clear Q2. intros w1 Hw1 _. cbn beta.
    destruct (run_fact lowest LU LD HU HD PD C fr fp fx fw fg good usable Hsep n b j Hn Hj kappa G Hka HG move movable Hfair Hmove (m_get (ts_val x0) 0 0) P H ahead kd Hkd cf Hev psi B HB Hpsi
      w1 ys Hw1 ltac:(apply Forall_forall; exact Hys) fuel r s Hfuel Hso ltac:(rewrite T'; exact He)) as (c & ls & Eb & Hcok & Tc & Lc & Hloc).
    rewrite T' in *. cbn [Nat.add] in Tc. rewrite Esq in Lc.
    destruct (sok_weights lowest good n b j Hn Hj c Hcok) as [HW LW]. set (W := imp lowest (col (c_w c) j)) in *.
    assert (Hxc : shaped (ts_val (c_x c)) n b /\ entries good (ts_val (c_x c))) by (destruct Hcok as [[Hx _ _ _] Hg]; now split). destruct Hxc as [Hx Hg].
    assert (Ee : run_estimate lowest (at_stream C w1) kd cf fuel r ys n b j x0 = exp (Rsum (map (fun c => real_of (c_ll c j)) ls))) by (unfold run_estimate; now rewrite Es, Eb).
    set (e := exp (Rsum (map (fun c => real_of (c_ll c j)) ls))) in *. rewrite Ee.
    assert (Ea : run_mean lowest psi (at_stream C w1) kd cf fuel r ys n b j x0 = sumto n (fun q => nth q W 0 * psi (m_get (ts_val (c_x c)) q j))%R) by (unfold run_mean; rewrite Es, Eb; reflexivity).
    rewrite Ea. set (a0 := sumto n (fun q => nth q W 0 * psi (m_get (ts_val (c_x c)) q j))%R).
    pose proof (after_error LU LD HU HD PD C fr fp fx fw fg good usable Hsep n b j Hn Hj G move movable Hfair Hmove (m_get (ts_val x0) 0 0) (fun q => e * nth q W 0)%R phi B (S i) Hphi
      (k - N) (r + N) w1 (c_x c) ltac:(lia) Hx Hg ltac:(rewrite Tc; exact Hh)) as Q.
    rewrite Tc in Q. fold psi in Q.
    assert (Eq : sumto n (fun q => square (e * nth q W 0)%R) = (square e * sq lowest n j c)%R).
    { unfold sq, bulk. fold W. rewrite <- sumto_scal. apply sumto_ext. intros q Hq. unfold square. ring. }
    rewrite Eq in Q. change (INR (S i) * INR (S i))%R with (square (INR (S i))) in Q.
    pose proof (over_most_lin LU LD HU HD (k - N) (r + N) _ (fun _ => (2 * z * square (e * a0 - m) + z * square B * square (e - l))%R) w1 _ (2 * z * square (e * a0 - m) + z * square B * square (e - l))%R
      (2 * z) 1 ltac:(lra) ltac:(lra) Q ltac:(apply over_most_const; [exact HU|exact HD|intros; apply Rle_refl])) as Q2.
    refine (over_most_possible LU LD (k - N) (r + N) _ _ w1 _ _ Hw1 _ _ Q2).
    - intros w2 Hw2 Ha. cbn beta.
      assert (Ef : run_forecast lowest phi (at_stream C w2) kd cf fuel r ys n b j x0 num_steps i = sumto n (fun q => nth q W 0 * phi (m_get (ts_val (after (at_stream C w2) (r + N) (S i) (c_x c))) q j))%R).
      { unfold run_forecast, run_path. rewrite Es. rewrite Hloc by (intros q Hq; apply Ha; lia). unfold forecast_mean, path_mean, predict_path. rewrite (path_after n b j Hn Hj) by exact Hi. reflexivity. }
      rewrite Ef. set (y := after _ _ _ _) in *. destruct (after_state LU LD C fr fp fx fw fg good usable Hsep n b j Hn Hj w2 (S i) (r + N) (c_x c) Hw2 Hx Hg) as (_ & [Hy1 Hy2] & Gy). fold y in Hy1, Hy2, Gy.
      pose proof (weighted_bound W (fun q => phi (m_get (ts_val y) q j)) B HW LW ltac:(intros q Hq; apply Hphi, Gy; lia)) as Hb. apply square_abs in Hb.
      set (a := sumto n (fun q => nth q W 0 * phi (m_get (ts_val y) q j))%R) in *.
      assert (E1 : sumto n (fun q => e * nth q W 0 * phi (m_get (ts_val y) q j))%R = (e * a)%R) by (unfold a; rewrite <- sumto_scal; apply sumto_ext; intros; ring).
      assert (E2 : sumto n (fun q => e * nth q W 0 * psi (m_get (ts_val (c_x c)) q j))%R = (e * a0)%R) by (unfold a0; rewrite <- sumto_scal; apply sumto_ext; intros; ring).
      rewrite E1, E2. assert (El : (a - m / l)%R = (/ l * ((e * a - m) + - a * (e - l)))%R) by (field; lra). rewrite El.
      replace (square (/ l * (e * a - m + - a * (e - l)))) with (/ square l * square (e * a - m + - a * (e - l)))%R by (unfold square; field; lra).
      pose proof (square_plus (e * a - m) (- a * (e - l))) as R1. pose proof (square_plus (e * a - e * a0) (e * a0 - m)) as R2.
      replace (e * a - e * a0 + (e * a0 - m))%R with (e * a - m)%R in R2 by ring.
      replace (square (- a * (e - l))) with (square a * square (e - l))%R in R1 by (unfold square; ring).
      pose proof (Rmult_le_compat_r _ _ _ (square_nonneg (e - l)) Hb) as R3.
      assert (Hq : (0 < / square l)%R) by (apply Rinv_0_lt_compat; unfold square; nra).
      assert (R4 : (/ square l * square (e * a - m + - a * (e - l)) <= / square l * (2 * (2 * square (e * a - e * a0) + 2 * square (e * a0 - m)) + 2 * (square B * square (e - l))))%R)
        by (apply Rmult_le_compat_l; lra).
      apply Rle_trans with (1 := R4). right. unfold z. field. unfold square. nra.
    - assert (R5 : (square (INR (S i)) * (square e * sq lowest n j c * square B) <= square (INR (S i)) * (square (G ^ K) / INR n * square B))%R).
      { apply Rmult_le_compat_l; [apply square_nonneg|]. apply Rmult_le_compat_r; [exact HB2|]. apply Rle_trans with (1 := Lc). right. unfold Rdiv. f_equal.
        unfold square. now rewrite Rpow_mult_distr. }
      apply (Rmult_le_compat_l (2 * z)) in R5; [|lra]. unfold extra. lra.
  Qed.
End Forecast.
Print Assumptions C111_forecast.

(** Bootstrap SISR with any threshold, or the auxiliary particle filter, with multinomial resampling. *)
Theorem C111_bootstrap : forall (E : Type) (M : ssm) step (K : law E) e0 (K0 : law xf) x00 lowest n b j G H normals autodiff pick kd cf fuel ys k r w (phi : xf -> R) B num_steps i,
  bounded_model M step K e0 K0 x00 G j -> 0 < n -> j < b -> (1 <= G /\ 1 <= H)%R ->
  (exists thr, kd = SISR thr) \/ (kd = APF /\ foreseen M step K j H) ->
  observe_every cf <> 0 /\ observe_every cf <= fuel ->
  (forall y, In y ys -> exists v, y = [v] /\ (is_fin v \/ v = NaN)) ->
  (0 <= B)%R -> (forall x, is_fin x -> (Rabs (phi x) <= B)%R) -> i < num_steps ->
  let ys' := map seen ys in
  let T := steps (observe_every cf) 0 ys' in
  let psi := hops (moves M step K j) (S i) T phi in
  let h f := expected (moves M step K j) (observe_every cf) f 0 ys' in
  hoppable (moves M step K j) (movable M step K j) (S i) T phi ->
  has_expected (moves M step K j) (movable M step K j) (observe_every cf) psi 0 ys' -> dom K0 (h psi) ->
  has_expected (moves M step K j) (movable M step K j) (observe_every cf) (fun _ => 1%R) 0 ys' -> dom K0 (h (fun _ => 1%R)) ->
  (0 < mean K0 (h (fun _ => 1%R)))%R ->
  draws (observe_every cf) 0 ys' + S i <= k -> possible (uniforms n b) (noise K e0 n b) w ->
  let C := multinomial_chances M step lowest normals autodiff pick in
  let l := mean K0 (h (fun _ => 1%R)) in
  at_most_from (initial K0 x00 n b) (uniforms n b) (noise K e0 n b) k r
    (fun x0 w => square (run_forecast lowest phi (at_stream C w) kd cf fuel r ys n b j x0 num_steps i - mean K0 (h psi) / l)) w
    (square B * forecast_rate 1 (G * H) T i / (square l * INR n))%R.
Proof.
  intros E M step K e0 K0 x00 lowest n b j G H normals autodiff pick kd cf fuel ys k r w phi B num_steps i HM Hn Hj (HG & HH) Hkd Hev Hys HB Hphi Hi ys' T psi h Hh He Hd He1 Hd1 Hpos Hk Hw C l.
  assert (HGH : (1 <= G * H)%R) by nra.
  assert (Hany : converging_any (uniforms n b) (noise K e0 n b) (initial K0 x00 n b) C is_fin number (boot_fr lowest) (boot_fp step) (boot_fx step) (boot_fw M step) (boot_fg M) n b j 1 (G * H)
    (moves M step K j) (movable M step K j) G H (boot_ahead M j) kd cf fuel ys k w) by (apply (boot_any M step K e0 K0 x00); try assumption; refine (Nat.le_trans _ _ _ _ Hk); apply Nat.le_add_r).
  pose proof (boot_starts M step K e0 K0 x00 lowest n b j (G * H) (HM' M step K e0 K0 x00 j G H HM HG HH) Hn Hj HGH normals autodiff pick cf fuel ys w Hev Hys) as Hst.
  assert (Hpsi : forall x, is_fin x -> (Rabs (psi x) <= B)%R).
  { intros x Hx. pose proof Hany as [(HU & HD & HX & PD) Hsep _ _ _ Hfair _ _ _ _ _ _].
    exact (drifts_bound _ _ HD PD C _ _ _ _ _ _ _ Hsep n b j Hn Hj _ _ Hfair NaN w (S i) T phi B Hh Hphi x Hx). }
  refine (C111_forecast lowest _ _ _ C is_fin number _ _ _ _ _ n b j 1 (G * H) _ (movable M step K j) G H (boot_ahead M j) kd cf fuel ys k r w phi B _ l num_steps i Hany Hi Hk HB Hphi Hh He _ He1 _ Hpos).
  - exact (Hst psi B HB Hpsi He Hd).
  - pose proof (Hst (fun _ => 1%R) 1%R ltac:(lra) ltac:(intros; right; exact Rabs_R1)) as Q. rewrite Rmult_1_r in Q. now apply Q.
Qed.
Print Assumptions C111_bootstrap.

(** A process that is one or minus one for ever, seen once with the right sign (right three times out of four). *)
Definition coin_model : ssm :=
  SSM (fun _ _ x => (x, Fin 1)) (fun _ _ _ _ => Fin 0) (fun _ x => ts_val x) (fun _ _ x y => sign_logp x y) (fun _ => Fin 1) (fun _ => Fin 0) (fun _ => Fin 1).
Definition coin_step (_ _ : nat) (x : xf) (_ : R) : xf := x.
Definition coin_noise : law R := finite [(0, 1)]%R.
Definition coin_start : law xf := finite [(Fin 1, / 2); (Fin (-1), / 2)]%R.
Definition coin_conf : fconf := FConf 1 false "skip"%string.
Definition coin_data : list (list xf) := [[Fin 1]].
Definition coin_chances lowest := multinomial_chances coin_model coin_step lowest (fun _ _ _ => 0%R) (fun f => f) (fun _ _ _ _ => 0).
Definition coin_stream : filter_stream (nat -> R) (nat * (nat -> R)) := fun _ => ((fun _ _ => / 2)%R, fun k => (k, fun _ : nat => 0%R)).

Lemma coin_bounded : bounded_model coin_model coin_step coin_noise 0%R coin_start (Fin 1) 1 0.
Proof.
  constructor.
  - split; [apply finite_ok; unfold Rsum; cbn; lra|]. split; [apply finite_pos; intros q [<-|[]]; cbn; lra|].
    split; [apply finite_ok; unfold Rsum; cbn; lra|]. split; [exists 1%R|exists (/ 2)%R]; now left.
  - intros x [p [H|[H|[]]]]; injection H as <- _; exact I.
  - intros t i [] e H _; try destruct H. exact I.
  - intros t i [v| | |] [z| | |] H H'; try destruct H; try destruct H'. exact I.
  - intros t i [] H; try destruct H. exact I.
  - intros t [v| | |] [z| | |] H H'; try destruct H; try destruct H'. cbn [obs_logp coin_model sign_logp real_of].
    rewrite exp_ln by (destruct (Rlt_dec 0 (v * z)); lra). destruct (Rlt_dec 0 (v * z)); lra.
Qed.
Lemma coin_possible n : possible (uniforms n 1) (noise coin_noise 0%R n 1) coin_stream.
Proof.
  intros i. split.
  - apply supp_independent. intros q. apply supp_independent. intros q'. cbn. lra.
  - exists (fun _ _ => 0%R). split; [|reflexivity]. apply supp_independent. intros q. apply supp_independent. intros q'. exists 1%R. now left.
Qed.
(** The chance that the process is positive, [i + 1] steps later, is three in four. *)
Lemma coin_answer i : let move := moves coin_model coin_step coin_noise 0 in
  let h f := mean coin_start (expected move 1 f 0 (map seen coin_data)) in
  h (fun _ => 1%R) = (/ 2)%R /\ (h (hops move (S i) 1 positive) / h (fun _ => 1) = 3 / 4)%R.
Proof.
  intros move h.
  assert (Hf : forall m t f x, hops move m t f x = f x).
  { induction m as [|m IH]; intros t f x; cbn [hops]; [reflexivity|]. unfold move at 1, moves, next. cbn [coin_noise finite mean map fold_right fst snd]. unfold coin_step. rewrite IH. ring. }
  assert (E : forall f, h f = (/ 2 * (3 / 4 * f (Fin 1%R)) + / 2 * (1 / 4 * f (Fin (-1)%R)))%R).
  { intros f. unfold h, coin_data. cbn [coin_start finite mean map fold_right fst snd expected until Nat.modulo Nat.divmod Nat.sub hops Nat.add]. change (seen [Fin 1]) with (Some [Fin 1%R]).
    cbn [hops]. unfold move, moves, next. cbn [coin_noise finite mean map fold_right fst snd]. unfold coin_step. cbn [coin_model obs_logp sign_logp hd real_of].
    rewrite !exp_ln by (destruct (Rlt_dec 0 _); lra). destruct (Rlt_dec 0 (1 * 1)); [|lra]. destruct (Rlt_dec 0 (-1 * 1)); lra. }
  split; [rewrite E; lra|]. rewrite !E, !Hf. cbn [positive]. destruct (Rlt_dec 0 1); [|lra]. destruct (Rlt_dec 0 (-1)); lra.
Qed.

(** Weighted forecasts are right in the limit ... *)
Example C111_nonvacuous : forall lowest n kd num_steps i, 0 < n -> i < num_steps -> (exists thr, kd = SISR thr) \/ kd = APF ->
  at_most_from (initial coin_start (Fin 1) n 1) (uniforms n 1) (noise coin_noise 0%R n 1) (2 + S i) 0
    (fun x0 w => square (run_forecast lowest positive (at_stream (coin_chances lowest) w) kd coin_conf 1 0 coin_data n 1 0 x0 num_steps i - 3 / 4)%R) coin_stream
    (square 1 * forecast_rate 1 (1 * 3) 1 i / (square (/ 2) * INR n))%R.
Proof.
  intros lowest n kd num_steps i Hn Hi Hkd. destruct (coin_answer i) as [E1 E2]. cbn zeta in E1, E2.
  assert (Hf : foreseen coin_model coin_step coin_noise 0 3).
  { intros t [v| | |] e [z| | |] H _ H'; try destruct H; try destruct H'. unfold coin_step. cbn [obs_logp coin_model mean_scale fst sign_logp real_of].
    pose proof (exp_pos (ln (if Rlt_dec 0 (v * z) then 3 / 4 else 1 / 4))). lra. }
  rewrite <- E2, <- E1.
  apply (C111_bootstrap R coin_model coin_step coin_noise 0%R coin_start (Fin 1) lowest n 1 0 1 3 (fun _ _ _ => 0%R) (fun f => f) (fun _ _ _ _ => 0) kd coin_conf 1 coin_data (2 + S i) 0 coin_stream positive 1 num_steps i);
    try exact Hi; try exact coin_bounded; try apply coin_possible; try lia; try lra; try exact I.
  - destruct Hkd; [now left|right; now split].
  - split; cbn; lia.
  - intros y [<-|[]]. exists (Fin 1%R). split; [reflexivity|]. now left.
  - intros [v| | |] _; cbn [positive]; try (rewrite Rabs_R0; lra). destruct (Rlt_dec 0 v); rewrite ?Rabs_R0, ?Rabs_R1; lra.
  - generalize (steps (observe_every coin_conf) 0 (map seen coin_data)). generalize (S i). intros m. induction m as [|m IH]; intros t; cbn [hoppable]; [exact I|]. split; [intros x _; exact I|apply IH].
  - cbn. repeat split; intros; exact I.
  - cbn. repeat split; intros; exact I.
  - cbn in E1 |- *. lra.
  - cbn. lia.
Qed.
Print Assumptions C111_nonvacuous.

(** ... but the returned paths carry no weights: their plain mean is wrong for any number of particles.  The mean square error of SISR with any
    threshold up to the number of particles (nothing is resampled before the first observation) is at least one sixteenth. *)
Theorem C111_plain_mean_refuted : forall lowest n thr num_steps k c, 0 < n -> (thr <= INR n)%R -> 0 < num_steps ->
  at_most_from (initial coin_start (Fin 1) n 1) (uniforms n 1) (noise coin_noise 0%R n 1) k 0
    (fun x0 w => square (run_plain lowest positive (at_stream (coin_chances lowest) w) (SISR thr) coin_conf 1 0 coin_data n 1 0 x0 num_steps 0 - 3 / 4)%R) coin_stream c ->
  (/ 16 <= c)%R.
Proof.
  intros lowest n thr num_steps k c Hn Hthr Hs (F & HF & HX). pose proof (lt_0_INR n Hn) as Hn0. pose proof coin_bounded as HM.
  assert (HGH : (1 <= 1)%R) by lra.
  pose proof (boot_converging coin_model coin_step coin_noise 0%R coin_start (Fin 1) lowest n 1 0 1 HM Hn ltac:(lia) HGH (fun _ _ _ => 0%R) (fun f => f) (fun _ _ _ _ => 0) 1 (INR n) coin_conf 1 coin_data 2 coin_stream
    ltac:(lra) ltac:(split; cbn; lia) ltac:(intros y [<-|[]]; exists (Fin 1%R); split; [reflexivity|now left]) ltac:(cbn; lia) (coin_possible n)) as [(HU & HD & HXo & PD) Hsep _ _ _ _ _ _ Hys _ Hx0 _].
  assert (PU : law_pos (uniforms n 1)).
  { apply independent_pos; [intros; apply supp_independent; intros; cbn; lra|]. apply independent_pos; [intros; cbn; lra|exact uniform_pos]. }
  assert (PX : law_pos (initial coin_start (Fin 1) n 1)).
  { apply image_pos. apply independent_pos; [intros; apply supp_independent; intros; exists (/ 2)%R; now left|].
    apply independent_pos; [intros; exists (/ 2)%R; now left|]. apply finite_pos. intros q [<-|[<-|[]]]; cbn; lra. }
  set (start x0 := sumto n (fun q => / INR n * positive (m_get (ts_val x0) q 0))%R).
  assert (Erun : forall x0 w, supp (initial coin_start (Fin 1) n 1) x0 -> possible (uniforms n 1) (noise coin_noise 0%R n 1) w ->
    run_plain lowest positive (at_stream (coin_chances lowest) w) (SISR thr) coin_conf 1 0 coin_data n 1 0 x0 num_steps 0 = start x0).
  { intros x0 w Hx Hw. destruct (Hx0 x0 Hx) as (T & Sh & Gd). destruct (initialize_ok lowest n 1 x0 Hn Sh) as (s & Es & Hok & Ex & _ & _ & Ew).
    assert (Ei : imp lowest (col (c_w s) 0) = repeat (/ INR n)%R n).
    { rewrite (Ew 0). replace (repeat (Fin 0) n) with (map Fin (repeat 0%R n)) by now rewrite map_repeat'. rewrite imp_fin, map_repeat', exp_0. unfold normal.
      rewrite map_repeat'. f_equal. rewrite Rsum_repeat. field. lra. }
    assert (El : low lowest thr s 0 = false).
    { unfold low, W. rewrite Ei. unfold ess_of. rewrite map_repeat', Rsum_repeat. destruct (Rlt_dec _ thr) as [Q|]; [|reflexivity]. exfalso.
      replace (/ (INR n * (/ INR n * / INR n)))%R with (INR n) in Q by (field; lra). lra. }
    set (O := at_stream (coin_chances lowest) w).
    destruct (sisr_predict_spec lowest O thr 0 n 1 s Hn Hok (res_ok _ _ _ _ _ _ _ _ _ _ Hsep n 1 0 Hn ltac:(lia) w 0 true (proj1 (Hw 0)))) as (p & Ep & Tp & [X1 X2] & _ & _ & _ & _ & Hhigh).
    destruct (Hhigh 0 ltac:(lia) El) as (Ecol & _).
    destruct (predict_ok lowest O (SISR thr) 0 n 1 s Hn Hok (res_ok _ _ _ _ _ _ _ _ _ _ Hsep n 1 0 Hn ltac:(lia) w 0 true (proj1 (Hw 0)))) as (p' & Ep' & Hp & _).
    cbn [predict] in Ep'. rewrite Ep in Ep'. injection Ep' as <-.
    assert (Gp : entries is_fin (ts_val (p_x p))).
    { intros q q' Hq Hq'. rewrite X2 in Hq'. assert (q' = 0) as -> by lia. rewrite <- (nth_col _ q 0 NaN) by exact Hq. rewrite Ecol, Ex. destruct Sh as [Sh1 Sh2]. rewrite nth_col by lia. apply Gd; lia. }
    pose proof (fun v nv => saw_good _ _ _ _ _ _ _ _ _ _ Hsep n 1 0 Hn ltac:(lia) w 1 [Fin 1%R] (p_x p) v nv I (proj2 (Hw 1)) Gp) as SG.
    destruct (sisr_correct_spec lowest O 1 [Fin 1%R] n 1 p Hn Hp (prop_ok _ _ _ _ _ _ _ _ _ _ Hsep w 1 (proj2 (Hw 1))) (proj2 (SG _ _))) as (c' & Ec & Hc & Exc & _).
    assert (Eb : batch_filter lowest O (SISR thr) coin_conf 1 0 coin_data s = Some (Ok (c', 2, [c']))).
    { cbn [batch_filter coin_data]. unfold filter_step. cbn [predict]. rewrite Ep. cbn [advance coin_conf observe_every Nat.eqb]. rewrite Nat.mod_1_r. cbn [Nat.eqb].
      change (missing [Fin 1%R]) with false. cbn [correct]. rewrite Ec. reflexivity. }
    unfold run_plain, run_path. rewrite Es. fold O. rewrite Eb. destruct num_steps as [|m]; [lia|]. unfold plain_mean, path_mean, predict_path. cbn [sample_states nth_error].
    apply (sumto_ext n). intros q Hq. rewrite (nth_const n) by exact Hq. do 2 f_equal.
    change (m_get (ts_val (propagate O 2 (c_x c'))) q 0) with (m_get (ts_val (c_x c')) q 0). rewrite Exc.
    change (m_get (ts_val (p_x p)) q 0 = m_get (ts_val x0) q 0). destruct Sh as [Sh1 Sh2].
    rewrite <- (nth_col (ts_val (p_x p)) q 0 NaN) by lia. rewrite Ecol, Ex. apply nth_col. lia. }
  assert (Av : averages (initial coin_start (Fin 1) n 1) start (/ 2)%R).
  { assert (A1 : averages coin_start positive (/ 2)%R).
    { split; [exact I|]. cbn [coin_start finite mean map fold_right fst snd positive]. destruct (Rlt_dec 0 1); [|lra]. destruct (Rlt_dec 0 (-1)); lra. }
    assert (A2 : averages (initial coin_start (Fin 1) n 1) start (sumto n (fun _ => / INR n * / 2)%R)).
    { apply averages_sum; [exact HXo|]. intros q Hq. apply in_seq in Hq. apply averages_scal; [exact HXo|]. apply averages_image. cbn [ts_val m_get].
      apply (independent_one (independent coin_start n (fun _ => Fin 1%R)) ltac:(apply independent_ok; [apply HM|intros; apply HM]) _ ltac:(intros; apply supp_independent; intros; apply HM) 1 0 (fun z => positive (z q))); [|lia].
      apply (independent_one coin_start ltac:(apply HM) _ ltac:(intros; apply HM) n q positive _ A1). lia. }
    rewrite sumto_const in A2. replace (INR n * (/ INR n * / 2))%R with (/ 2)%R in A2 by (field; lra). exact A2. }
  assert (HF' : forall x0, supp (initial coin_start (Fin 1) n 1) x0 -> (5 / 16 - / 2 * start x0 <= F x0)%R).
  { intros x0 Hx. refine (over_most_least _ _ HU HD PU PD k 0 _ _ _ _ (coin_possible n) _ (HF x0 Hx)). intros w' Hw'. cbn beta. rewrite Erun by assumption.
    assert (0 <= square (start x0 - / 2))%R by apply square_nonneg. unfold square in *. lra. }
  destruct HX as (g & m & Hg & Hm & Hc). apply Rle_trans with m; [|exact Hc].
  apply (averages_le _ HXo PX (fun x0 => - / 2 * start x0 + 5 / 16 * 1)%R g (/ 16) m); [|exact Hm|].
  - replace (/ 16)%R with (- / 2 * / 2 + 5 / 16 * 1)%R by lra. apply averages_lin; [exact HXo|exact Av|now apply averages_const].
  - intros x0 Hx. specialize (HF' x0 Hx). specialize (Hg x0 Hx). lra.
Qed.
Print Assumptions C111_plain_mean_refuted.
