(** Property C87 (pyfilter/inference/batch/mcmc: pmmh.py, utils.py, proposals/random_walk.py): PMMH samples from the
    posterior, however few particles its filters have. *)
From Coq Require Import String Reals List Bool Arith Lia Lra.
From Coquelicot Require Import Coquelicot.
From Verif.Model Require Import Base Xf Tensor Weights Resampling Particle FilterLoop Proposal Pmmh.
From Verif.Spec Require Import WeightsSpec ResamplingSpec ParticleSpec UnbiasedSpec FairSpec PmmhSpec StationarySpec.
From Verif.Proofs Require Import UnbiasedProofs UnbiasedFilter StationaryProofs.
From Verif.Props Require Import PmmhProps UnbiasedProps.
Import ListNotations.
Local Open Scope nat_scope.
Notation length := List.length.

(** The value of [h] at chain [b] after [n] iterations from the chains [c], with the draws [w]: for each iteration those of
    the proposal and of the filters, and the uniform numbers of the chains. *)
Definition chain_value {F D} (ll : F -> xf) log_prior scale (rvs : D -> list (list R * list R) -> list (list R)) (run : D -> list (list R) -> list F)
    (b n : nat) (h : list R * F -> R) (c : chains) (w : @stream D (list R)) : R :=
  look_at b h (fst (iterate ll log_prior (walk_build scale) walk_log_prob walk_exchange n 0
    (fun i => rvs (fst (w i))) (fun i => run (fst (w i))) (fun i => snd (w i)) c [])).

(** The density proportional to prior times estimated likelihood, on parameters and filter results, stays in place: the
    average of [h] is the same after any number of iterations.  [M]: the reference measure, for which the candidates are
    symmetric. *)
Theorem C87_invariant : forall (F D : Type) (ll : F -> xf) log_prior scale B b (L : law D) M rvs run cand filt G H n h m start w,
  b < B -> law_ok L -> measure_ok M -> samples_ok B rvs scale cand -> (forall d, run_ok B (run d) (filt d)) ->
  let next d z := (cand d b (fst z), filt d b (cand d b (fst z))) in
  (forall d z, supp L d -> among M z -> among M (next d z)) ->
  (forall z, among M z -> proper (log_prior (fst z)) /\ proper (ll (snd z))) ->
  reversible M L next G -> testable M L next (posterior log_prior ll) G H -> H h ->
  (forall z, among M z -> chains_ok B (start z) /\ centred scale (start z) /\ at_chain b (start z) z) ->
  integral M (fun z => posterior log_prior ll z * h z)%R m ->
  let value z := chain_value ll log_prior scale rvs run b n h (start z) in
  integral M (fun z => posterior log_prior ll z * average L (uniforms B) n 0 (value z) w)%R m /\
  forall z, among M z -> exists_average L (uniforms B) n 0 (value z) w.
Proof.
  intros F D ll lp scale B b L M rvs run cand filt G H n h m start w Hb HL HM Hrvs Hrun next Hcl Hpr Hrev HH Hh Hst Hm value.
  assert (A : forall z, among M z -> averages_over L (uniforms B) n 0 (value z) w (onwards ll lp b L cand filt n h z)).
  { intros z Hz. destruct (Hst z Hz) as (C & Ce & A).
    apply (iterate_onwards ll lp scale B b Hb L HL M rvs run cand filt Hrvs Hrun Hcl Hpr G H HH h Hh n 0 (start z) z w [] (value z) C Ce A Hz). reflexivity. }
  split; [|intros z Hz; apply (A z Hz)].
  refine (integral_ext _ HM _ _ _ _ (onwards_integral ll lp b L HL M HM cand filt G H HH Hrev n h m Hh Hm)).
  intros z Hz. f_equal. symmetry. apply (A z Hz).
Qed.
Print Assumptions C87_invariant.

(** If the filters' likelihood estimates are unbiased ([lik], see C86), then the parameters follow the posterior: if the
    integral of [h] against prior times likelihood is [m], so it is after [n] iterations. *)
Theorem C87_posterior : forall (F D : Type) (ll : F -> xf) log_prior scale B b (L : law D) M M0 rvs run cand filt G H n h m start w lik,
  b < B -> law_ok L -> measure_ok M -> measure_ok M0 -> samples_ok B rvs scale cand -> (forall d, run_ok B (run d) (filt d)) ->
  let next d z := (cand d b (fst z), filt d b (cand d b (fst z))) in
  (forall d z, supp L d -> among M z -> among M (next d z)) ->
  (forall z, among M z -> proper (log_prior (fst z)) /\ proper (ll (snd z))) ->
  reversible M L next G -> testable M L next (posterior log_prior ll) G H -> H (fun z => h (fst z)) ->
  (forall z, among M z -> chains_ok B (start z) /\ centred scale (start z) /\ at_chain b (start z) z) ->
  (** the reference measure draws a filter result for every parameter *)
  (forall k m, (forall t, among M0 t -> dom L (fun d => k (t, filt d b t))) -> integral M0 (fun t => mean L (fun d => k (t, filt d b t))) m -> integral M k m) ->
  (forall t, among M0 t -> averages L (fun d => mass (ll (filt d b t))) (lik t)) ->
  integral M0 (fun t => mass (log_prior t) * lik t * h t)%R m ->
  integral M (fun z => posterior log_prior ll z * average L (uniforms B) n 0 (chain_value ll log_prior scale rvs run b n (fun z => h (fst z)) (start z)) w)%R m.
Proof.
  intros F D ll lp scale B b L M M0 rvs run cand filt G H n h m start w lik Hb HL HM HM0 Hrvs Hrun next Hcl Hpr Hrev HH Hh Hst Hdis Hlik Hm.
  apply (C87_invariant F D ll lp scale B b L M rvs run cand filt G H n (fun z => h (fst z)) m start w); try assumption.
  assert (A : forall t, among M0 t -> averages L (fun d => posterior lp ll (t, filt d b t) * h t)%R (mass (lp t) * lik t * h t)%R).
  { intros t Ht. replace (mass (lp t) * lik t * h t)%R with (mass (lp t) * h t * lik t)%R by ring.
    apply (averages_ext L HL (fun d => (mass (lp t) * h t * mass (ll (filt d b t)))%R)); [intros d _; unfold posterior; cbn [fst snd]; ring|]. apply averages_scal; [exact HL|]. now apply Hlik. }
  apply Hdis; [intros t Ht; apply (A t Ht)|]. refine (integral_ext _ HM0 _ _ _ _ Hm). intros t Ht. symmetry. apply (A t Ht).
Qed.
Print Assumptions C87_posterior.

(** With bootstrap filters, SISR with any threshold or APF, and systematic resampling: [model t], [step t], [K0 t] are the
    model with the parameters [t]; the draws [d] provide initial particles and the stream of the filters' draws. *)
Theorem C87_bootstrap : forall (F D E : Type) (ll : F -> xf) log_prior scale B b (L : law D) M M0 rvs run cand filt G H n h m start w
    model step (K : law E) e0 K0 x00 lowest N normals autodiff pick kd cf fuel ys k r w0 (initials : D -> list R -> tstate xf) (draw : D -> filter_stream R (nat * (nat -> E))),
  b < B -> law_ok L -> measure_ok M -> measure_ok M0 -> samples_ok B rvs scale cand -> (forall d, run_ok B (run d) (filt d)) ->
  let next d z := (cand d b (fst z), filt d b (cand d b (fst z))) in
  (forall d z, supp L d -> among M z -> among M (next d z)) ->
  (forall z, among M z -> proper (log_prior (fst z)) /\ proper (ll (snd z))) ->
  reversible M L next G -> testable M L next (posterior log_prior ll) G H -> H (fun z => h (fst z)) ->
  (forall z, among M z -> chains_ok B (start z) /\ centred scale (start z) /\ at_chain b (start z) z) ->
  (forall k m, (forall t, among M0 t -> dom L (fun d => k (t, filt d b t))) -> integral M0 (fun t => mean L (fun d => k (t, filt d b t))) m -> integral M k m) ->
  (** the model *)
  law_ok K -> (forall t, law_ok (K0 t)) -> supp K e0 -> (forall t, supp (K0 t) (x00 t)) -> (forall t x, supp (K0 t) x -> is_fin x) -> 0 < N ->
  (forall p t i x e, is_fin x -> supp K e -> is_fin (step p t i x e)) ->
  (forall p t i x y, is_fin x -> is_fin y -> is_fin (obs_logp (model p) t i x y)) ->
  (forall p t i x, is_fin x -> is_fin (fst (mean_scale (model p) t i x))) ->
  ((exists thr, kd = SISR thr) \/ kd = APF) -> observe_every cf <> 0 -> observe_every cf <= fuel ->
  (forall y, In y ys -> exists v, y = [v] /\ (is_fin v \/ v = NaN)) ->
  let ys' := map seen ys in
  let lik p := likelihood (moves (model p) (step p) K b) (observe_every cf) 0 ys' in
  (forall p, has_likelihood (moves (model p) (step p) K b) (movable (model p) (step p) K b) (observe_every cf) 0 ys') ->
  (forall p, dom (K0 p) (lik p)) -> draws (observe_every cf) 0 ys' <= k ->
  (** the draws follow the laws of C86, and the result of filter [b] carries its estimate *)
  (forall p g q, averages (initial (K0 p) (x00 p) N B) (fun x0 => average (offsets B) (noise K e0 N B) k r (g x0) w0) q ->
     (forall x0, supp (initial (K0 p) (x00 p) N B) x0 -> exists_average (offsets B) (noise K e0 N B) k r (g x0) w0) ->
     averages L (fun d => g (initials d p) (draw d)) q) ->
  (forall d p, mass (ll (filt d b p)) =
     run_estimate lowest (at_stream (bootstrap_chances (model p) (step p) lowest normals autodiff pick) (draw d)) kd cf fuel r ys N B b (initials d p)) ->
  integral M0 (fun p => mass (log_prior p) * mean (K0 p) (lik p) * h p)%R m ->
  integral M (fun z => posterior log_prior ll z * average L (uniforms B) n 0 (chain_value ll log_prior scale rvs run b n (fun z => h (fst z)) (start z)) w)%R m.
Proof.
  intros F D E ll lp scale B b L M M0 rvs run cand filt G H n h m start w model step K e0 K0 x00 lowest N normals autodiff pick kd cf fuel ys k r w0 initials draw
    Hb HL HM HM0 Hrvs Hrun next Hcl Hpr Hrev HH Hh Hst Hdis HK HK0 He0 Hx00 Hfin HN Hstep Hobs Hmean Hkd Hev Hfuel Hys ys' lik Hlik Hdom Hk Hdraw Hest Hm.
  apply (C87_posterior F D ll lp scale B b L M M0 rvs run cand filt G H n h m start w (fun p => mean (K0 p) (lik p))); try assumption.
  intros p _.
  destruct (C86_bootstrap E (model p) (step p) K e0 (K0 p) (x00 p) lowest N B b normals autodiff pick kd cf fuel ys k r w0 HK (HK0 p) He0 (Hx00 p) (Hfin p) HN Hb
    (Hstep p) (Hobs p) (Hmean p) Hkd Hev Hfuel Hys (Hlik p) (Hdom p) Hk) as [A1 A2].
  refine (averages_ext L HL _ _ _ _ (Hdraw p _ _ A1 A2)). intros d _. symmetry. apply Hest.
Qed.
Print Assumptions C87_bootstrap.

(** The draws asked for can be had: something drawn for the candidate, initial particles and the stream of the filters. *)
Definition drawn {A X U D} (LA : law A) (LX : law X) (LU : law U) (LD : law D) (k r : nat) (w0 : @stream U D) : law (A * X * @stream U D) :=
  Law (fun q => supp LA (fst (fst q)) /\ supp LX (snd (fst q)))
      (fun f => dom LA (fun a => mean LX (fun x => average LU LD k r (fun w => f (a, x, w)) w0)) /\
                forall a, supp LA a -> dom LX (fun x => average LU LD k r (fun w => f (a, x, w)) w0) /\
                forall x, supp LX x -> exists_average LU LD k r (fun w => f (a, x, w)) w0)
      (fun f => mean LA (fun a => mean LX (fun x => average LU LD k r (fun w => f (a, x, w)) w0))).
Section Drawn.
  Context {U D : Type} (LU : law U) (LD : law D) (HU : law_ok LU) (HD : law_ok LD).
  Lemma over_ext k : forall r f g w m, (forall w', f w' = g w') -> averages_over LU LD k r f w m -> averages_over LU LD k r g w m.
  Proof.
    induction k as [|k IH]; intros r f g w m E [A1 A2].
    - split; [exact I|]. cbn in *. now rewrite <- E.
    - cbn [exists_average average] in A1, A2. destruct A1 as [A0 A1].
      apply (over_step LU LD HU HD k r g w (fun u d => average LU LD k (S r) f (put w r (u, d))) (fun u => mean LD (fun d => average LU LD k (S r) f (put w r (u, d))))).
      + intros u d Hu Hd. apply (IH (S r) f); [exact E|]. split; [now apply A1|reflexivity].
      + intros u Hu. split; [now apply A1|reflexivity].
      + now split.
  Qed.
  Lemma over_lin a b k : forall r f g w m m', averages_over LU LD k r f w m -> averages_over LU LD k r g w m' ->
    averages_over LU LD k r (fun w => a * f w + b * g w)%R w (a * m + b * m')%R.
  Proof.
    induction k as [|k IH]; intros r f g w m m' [A1 A2] [B1 B2].
    - split; [exact I|]. cbn in *. congruence.
    - cbn [exists_average average] in A1, A2, B1, B2. destruct A1 as [A0 A1]. destruct B1 as [B0 B1].
      apply (over_step LU LD HU HD k r _ w (fun u d => a * average LU LD k (S r) f (put w r (u, d)) + b * average LU LD k (S r) g (put w r (u, d)))%R
        (fun u => a * mean LD (fun d => average LU LD k (S r) f (put w r (u, d))) + b * mean LD (fun d => average LU LD k (S r) g (put w r (u, d))))%R).
      + intros u d Hu Hd. apply IH; (split; [now apply A1 || now apply B1|reflexivity]).
      + intros u Hu. apply averages_lin; [exact HD| |]; (split; [now apply A1 || now apply B1|reflexivity]).
      + apply averages_lin; [exact HU|now split|now split].
  Qed.
  Context {A X : Type} (LA : law A) (LX : law X) (HA : law_ok LA) (HX : law_ok LX) (k r : nat) (w0 : @stream U D).
  Lemma drawn_is f F G m : (forall a x, supp LA a -> supp LX x -> averages_over LU LD k r (fun w => f (a, x, w)) w0 (F a x)) ->
    (forall a, supp LA a -> averages LX (F a) (G a)) -> averages LA G m -> averages (drawn LA LX LU LD k r w0) f m.
  Proof.
    intros H1 H2 H3.
    assert (H2' : forall a, supp LA a -> averages LX (fun x => average LU LD k r (fun w => f (a, x, w)) w0) (G a)).
    { intros a Ha. apply (averages_ext LX HX (F a)); [|now apply H2]. intros x Hx. symmetry. apply (H1 a x Ha Hx). }
    assert (H3' : averages LA (fun a => mean LX (fun x => average LU LD k r (fun w => f (a, x, w)) w0)) m).
    { apply (averages_ext LA HA G); [|exact H3]. intros a Ha. symmetry. apply (H2' a Ha). }
    split; [split; [apply H3'|]|apply H3']. intros a Ha. split; [apply (H2' a Ha)|]. intros x Hx. apply (H1 a x Ha Hx).
  Qed.
  Lemma drawn_ok : law_ok (drawn LA LX LU LD k r w0).
  Proof.
    constructor.
    - intros f g E [D1 D2]. cbn [drawn supp mean] in E |- *.
      apply (drawn_is g (fun a x => average LU LD k r (fun w => f (a, x, w)) w0) (fun a => mean LX (fun x => average LU LD k r (fun w => f (a, x, w)) w0))).
      + intros a x Ha Hx. apply (over_ext k r (fun w => f (a, x, w))); [intros w'; now apply E|]. split; [now apply D2|reflexivity].
      + intros a Ha. split; [now apply D2|reflexivity].
      + split; [exact D1|reflexivity].
    - intros c. apply (drawn_is (fun _ => c) (fun _ _ => c) (fun _ => c)).
      + intros a x _ _. apply over_const; [exact HU|exact HD|]. reflexivity.
      + intros. now apply averages_const.
      + now apply averages_const.
    - intros a b f g [D1 D2] [D3 D4]. cbn [drawn mean].
      apply (drawn_is (fun q => a * f q + b * g q)%R (fun i x => a * average LU LD k r (fun w => f (i, x, w)) w0 + b * average LU LD k r (fun w => g (i, x, w)) w0)%R
        (fun i => a * mean LX (fun x => average LU LD k r (fun w => f (i, x, w)) w0) + b * mean LX (fun x => average LU LD k r (fun w => g (i, x, w)) w0))%R).
      + intros i x Hi Hx. apply over_lin; (split; [now apply D2 || now apply D4|reflexivity]).
      + intros i Hi. apply averages_lin; [exact HX| |]; (split; [now apply D2 || now apply D4|reflexivity]).
      + apply averages_lin; [exact HA|now split|now split].
  Qed.
  Lemma drawn_filters g q : averages LX (fun x => average LU LD k r (g x) w0) q -> (forall x, supp LX x -> exists_average LU LD k r (g x) w0) ->
    averages (drawn LA LX LU LD k r w0) (fun d => g (snd (fst d)) (snd d)) q.
  Proof.
    intros [E1 E2] H. apply (drawn_is _ (fun _ x => average LU LD k r (g x) w0) (fun _ => q)).
    - intros a x Ha Hx. split; [exact (H x Hx)|reflexivity].
    - intros a Ha. now split.
    - now apply averages_const.
  Qed.
End Drawn.
Theorem C87_draws : forall (A X U D : Type) (LA : law A) (LX : law X) (LU : law U) (LD : law D) k r w0, law_ok LA -> law_ok LX -> law_ok LU -> law_ok LD ->
  law_ok (drawn LA LX LU LD k r w0) /\
  forall g q, averages LX (fun x => average LU LD k r (g x) w0) q -> (forall x, supp LX x -> exists_average LU LD k r (g x) w0) ->
    averages (drawn LA LX LU LD k r w0) (fun d => g (snd (fst d)) (snd d)) q.
Proof. intros A X U D LA LX LU LD k r w0 HA HX HU HD. split; [now apply drawn_ok|]. intros g q. now apply drawn_filters. Qed.
Print Assumptions C87_draws.

(** * A chain on two points whose filter doubts by half *)
Definition flip (e x : R) : R := (e + (1 - 2 * e) * x)%R.
Definition toss : law (R * R) := finite [((0, / 2), / 4); ((0, 3 / 2), / 4); ((1, / 2), / 4); ((1, 3 / 2), / 4)]%R.
Definition doubted (f x : R) : R := (x + ln f)%R.
Definition spots : measure (list R * R) :=
  summing [(([0], doubted (/ 2) 0), / 2); (([0], doubted (3 / 2) 0), / 2); (([1], doubted (/ 2) 1), / 2); (([1], doubted (3 / 2) 1), / 2)]%R.
Definition plain : measure (list R) := summing [([0], 1); ([1], 1)]%R.
Definition toss_cand (d : R * R) (_ : nat) (t : list R) : list R := map (flip (fst d)) t.
Definition toss_filt (d : R * R) (_ : nat) (t : list R) : R := doubted (snd d) (hd 0%R t).
Definition toss_prior (t : list R) : xf := Fin (- hd 0 t / 3)%R.

Lemma summing_ok {Z} (l : list (Z * R)) : measure_ok (summing l).
Proof.
  constructor; cbn [summing among integral].
  - intros f g m Hfg <-. f_equal. apply map_ext_in. intros [z p] Hin. cbn. rewrite Hfg; [reflexivity|now exists p].
  - congruence.
  - intros a b f g m m' <- <-. clear. induction l as [|q l IH]; cbn [map fold_right]; [ring|]. rewrite IH. ring.
Qed.
Example C87_nonvacuous : forall n w, 
  integral spots (fun z => posterior toss_prior Fin z *
    average toss (uniforms 2) n 0 (chain_value Fin toss_prior [1%R] (fun d k => map (fun q => map (flip (fst d)) (fst q)) k) (fun d rows => map (toss_filt d 0) rows) 1 n (fun z => hd 0 (fst z))
      (Chains [[0]; fst z] [0; snd z] [([0], [1]); (fst z, [1])])) w)%R (exp (- (1) / 3) * exp 1)%R.
Proof.
  intros n w.
  apply (C87_posterior R (R * R) Fin toss_prior [1%R] 2 1 toss spots plain (fun d k => map (fun q => map (flip (fst d)) (fst q)) k) (fun d rows => map (toss_filt d 0) rows)
    toss_cand toss_filt (fun _ => True) (fun _ => True) n (fun t => hd 0%R t) (exp (- (1) / 3) * exp 1)%R
    (fun z => Chains [[0%R]; fst z] [0%R; snd z] [([0%R], [1%R]); (fst z, [1%R])]) w (fun t => exp (hd 0%R t))).
  - lia.
  - apply finite_ok. unfold Rsum. cbn. lra.
  - apply summing_ok.
  - apply summing_ok.
  - intros d rows Hl. rewrite map_map. cbn [fst]. split; [now rewrite map_length|]. intros i r Hr. now rewrite nth_error_map, Hr.
  - intros d rows Hl. split; [now rewrite map_length|]. intros i r Hr. now rewrite nth_error_map, Hr.
  - intros d z (p & Hd) (q & Hz). cbn in Hd, Hz.
    assert (F00 : flip 0 0 = 0%R) by (unfold flip; ring). assert (F01 : flip 0 1 = 1%R) by (unfold flip; ring).
    assert (F10 : flip 1 0 = 1%R) by (unfold flip; ring). assert (F11 : flip 1 1 = 0%R) by (unfold flip; ring).
    exists (/ 2)%R.
    destruct Hd as [Hd|[Hd|[Hd|[Hd|[]]]]]; injection Hd as <- _; destruct Hz as [Hz|[Hz|[Hz|[Hz|[]]]]]; injection Hz as <- _;
      unfold toss_cand, toss_filt; cbn [fst snd map hd]; rewrite ?F00, ?F01, ?F10, ?F11; cbn [hd In]; tauto.
  - intros z _. split; exact I.
  - intros g m m' _ [_ H1] [_ H2]. cbn [integral spots summing toss finite mean map fold_right fst snd toss_cand toss_filt hd] in H1, H2.
    assert (F00 : flip 0 0 = 0%R) by (unfold flip; ring). assert (F01 : flip 0 1 = 1%R) by (unfold flip; ring).
    assert (F10 : flip 1 0 = 1%R) by (unfold flip; ring). assert (F11 : flip 1 1 = 0%R) by (unfold flip; ring).
    rewrite ?F00, ?F01, ?F10, ?F11 in H1, H2. unfold toss_filt in H1, H2. cbn [fst snd hd] in H1, H2. lra.
  - constructor; intros h _; try exact I; try (intros; exact I); eexists; split; [intros; exact I|reflexivity|intros; exact I|reflexivity].
  - exact I.
  - intros [t f] _. split; [now split|]. split; [reflexivity|now split].
  - intros k m _ Hk. cbn [integral spots plain summing toss finite mean map fold_right fst snd] in *. unfold toss_filt in Hk. cbn [fst snd hd] in Hk. lra.
  - intros t _. split; [exact I|]. cbn [toss finite mean map fold_right fst snd]. unfold toss_filt, doubted. cbn [snd]. cbn [mass]. rewrite !exp_plus, !exp_ln by lra. field.
  - cbn [integral plain summing map fold_right fst snd hd]. unfold toss_prior. cbn [mass hd]. ring.
Qed.
