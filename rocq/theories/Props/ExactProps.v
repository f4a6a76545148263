(** Property C112 (pyfilter/inference/sequential: base.py, smc2.py, state.py, kernels/mh.py): a whole SMC2 fit is right on average. *)
From Coq Require Import Reals List Bool Arith Lia Lra.
From Verif.Model Require Import Base Xf Weights Pmmh Sequential.
From Verif.Spec Require Import WeightsSpec ParticleSpec ResamplingSpec SequentialSpec UnbiasedSpec ConvergeSpec StationarySpec ProperSpec RejuvenateSpec ExactSpec.
From Verif.Proofs Require Import WeightsProofs MomentsProofs UnbiasedProofs StationaryProofs ExactProofs.
From Verif.Props Require Import PmmhProps StationaryProps ProperProps RejuvenateProps.
Import ListNotations.
Local Open Scope nat_scope.

(** Weighted sums over the final particles of a fit, times the mean weights at which they were rejuvenated, are on average
    what the target says.  The number of particles and of moves is arbitrary; rejuvenation is at times fixed in advance. *)
Theorem C112_exact : forall (T F Y K A Q U D : Type) (E : A -> (nat -> @block Q U D) -> env T F Y K) (LA : law A) (LQ : law Q) (LU : law U) (L : law D)
    rows init advance pick cand filt c B np rnd sched ys log_prior log_density (M : nat -> measure (T * (F * xf))) G H cbs base w0 h m,
  law_ok LA -> law_ok LQ -> law_ok LU -> law_ok L -> (forall j, measure_ok (M j)) ->
  fit_draws E init advance pick cand filt B np rnd (c_steps c) sched ys log_prior log_density ->
  targets LA LQ L rows init advance cand filt B sched ys log_prior log_density M G H ->
  fair_pick LU pick B -> 0 < B -> (c_accept c <= 0)%R -> c_dist c = None -> scheduled c B sched ->
  possible L (uniforms B) base -> (forall j, supp (blocks LQ LU L B (c_steps c) base) (w0 j)) ->
  H (List.length ys) h -> integral (M (List.length ys)) (fun z => target log_prior log_density z * h z)%R m ->
  averages (all_draws LA LQ LU L B (c_steps c) ys base w0) (fun q => whole_fit (E (fst q) (snd q)) (Plain (SMC2 c)) cbs np rnd (rows (fst q)) ys h) m.
Proof.
  intros T F Y K A Q U D E LA LQ LU L rows init advance pick cand filt c B np rnd sched ys lp lq M G H cbs base w0 h m HA HQ HU HL HM FD TG FP HB Ha Hd SC Pb Hw Hh Hm.
  apply (fit_exact E LA LQ LU L HA HQ HU HL rows init advance pick cand filt c B np rnd sched ys lp lq M G H TG HM FP HB Ha Hd FD cbs base w0 h m SC); try assumption.
Qed.
Print Assumptions C112_exact.

(** If the filters' likelihood estimates are unbiased ([lik], see C86), the target is prior times likelihood: with [h] constant
    one, the fit estimates the evidence without bias. [M0]: the law of the candidates. *)
Theorem C112_posterior : forall (T F Y K A Q U D X : Type) (E : A -> (nat -> @block Q U D) -> env T F Y K) (LA : law A) (LQ : law Q) (LU : law U) (L : law D) (LF : law X)
    rows init advance pick cand filt c B np rnd sched ys log_prior log_density (M : nat -> measure (T * (F * xf))) G H cbs base w0 (M0 : measure T) result lik h m,
  law_ok LA -> law_ok LQ -> law_ok LU -> law_ok L -> law_ok LF -> (forall j, measure_ok (M j)) -> measure_ok M0 ->
  fit_draws E init advance pick cand filt B np rnd (c_steps c) sched ys log_prior log_density ->
  targets LA LQ L rows init advance cand filt B sched ys log_prior log_density M G H ->
  fair_pick LU pick B -> 0 < B -> (c_accept c <= 0)%R -> c_dist c = None -> scheduled c B sched ->
  possible L (uniforms B) base -> (forall j, supp (blocks LQ LU L B (c_steps c) base) (w0 j)) ->
  (** filters on all observations: a result for every parameter *)
  (forall f m, (forall t, among M0 t -> dom LF (fun x => f (t, result x t))) -> integral M0 (fun t => mean LF (fun x => f (t, result x t))) m -> integral (M (List.length ys)) f m) ->
  (forall t, among M0 t -> averages LF (fun x => mass (snd (result x t))) (lik t)) ->
  H (List.length ys) (fun z => h (fst z)) -> integral M0 (fun t => mass (xsub (log_prior t) (Fin (log_density t))) * lik t * h t)%R m ->
  averages (all_draws LA LQ LU L B (c_steps c) ys base w0) (fun q => whole_fit (E (fst q) (snd q)) (Plain (SMC2 c)) cbs np rnd (rows (fst q)) ys (fun z => h (fst z))) m.
Proof.
  intros T F Y K A Q U D X E LA LQ LU L LF rows init advance pick cand filt c B np rnd sched ys lp lq M G H cbs base w0 M0 result lik h m HA HQ HU HL HF HM HM0 FD TG FP HB Ha Hd SC Pb Hw Hdis Hlik Hh Hm.
  apply (C112_exact T F Y K A Q U D E LA LQ LU L rows init advance pick cand filt c B np rnd sched ys lp lq M G H); try assumption.
  assert (Av : forall t, among M0 t -> averages LF (fun x => target lp lq (t, result x t) * h t)%R (mass (xsub (lp t) (Fin (lq t))) * lik t * h t)%R).
  { intros t Ht. replace (mass (xsub (lp t) (Fin (lq t))) * lik t * h t)%R with (mass (xsub (lp t) (Fin (lq t))) * h t * lik t)%R by ring.
    apply (averages_ext LF HF (fun x => mass (xsub (lp t) (Fin (lq t))) * h t * mass (snd (result x t)))%R); [intros x _; unfold target, posterior; cbn [fst snd]; ring|]. apply averages_scal; [exact HF|now apply Hlik]. }
  apply Hdis; [intros t Ht; apply (Av t Ht)|]. refine (integral_ext _ HM0 _ _ _ _ Hm). intros t Ht. symmetry. apply (Av t Ht).
Qed.
Print Assumptions C112_posterior.

(** * An example *)
(** Two observations; particles as in C108 (RejuvenateProps.v), rejuvenated with [k] moves after the first one. *)
Definition duo_cfg (k : nat) : smc2_cfg := Smc2Cfg (fun i => if i =? 1 then 2%R else (1 / 4)%R) k 0%R 2 None.
Definition duo_sched (j : nat) : bool := j =? 0.
Definition duo_slot (q : R * R) (b : nat) : R := match b with 0 => fst q | _ => snd q end.
Notation duo_block := (@block (R * R) R ((nat * R) * (nat * R))).
Definition duo_env (k : nat) (a : nat * nat) (w : nat -> duo_block) : env nat nat unit unit :=
  let moves r := snd (snd (w 0)) ((r - 4) / 4) in
  Env nat nat unit unit (-1000)%R 2 (fun r np b built now => 0)
    (fun r np b built now y f => (S f, Fin (INR now + ln (if r =? 1 then duo_slot (fst (w 0)) b else if r =? 4 + k * 4 then duo_slot (fst (w 1)) b else snd (of_slot (fst (moves r)) b)))))
    (fun r p => try_pick (fst (snd (w 0))) p) (fun r rows w idx => rows) (fun r => [true; false])
    (fun rows w fs => tt) (fun k rows => map (fun t => Fin (try_density t)) rows) (fun k k' m => tt) (fun r k => map (try_cand (fst (moves r))) [0; 1]) (fun r => snd (moves r)) (fun t => Fin (ln (1 / 2))) (fun a b => 0%R).
Definition duo_rows (a : nat * nat) : list nat := [fst a; snd a].
Definition duo_advance (q : R * R) (b t : nat) (y : unit) (f : nat) : nat * xf := (S f, Fin (INR t + ln (duo_slot q b))).
Definition duo_prior : law (nat * nat) := finite (map (fun a => (a, (1 / 4)%R)) [(0, 0); (0, 1); (1, 0); (1, 1)]).
Definition duo_noise : law (R * R) := let a := (1 / 2)%R in let b := (3 / 2)%R in finite (map (fun q => (q, (1 / 4)%R)) [(a, a); (a, b); (b, a); (b, b)]).
Definition duo_start (t : nat) : nat * (nat * xf) := (t, (0, Fin 0)).
Definition duo_end (t : nat) (x x' : R) : nat * (nat * xf) := (t, (2, Fin (0 + (INR t + ln x) + (INR t + ln x'))%R)).
Definition duo_points (j : nat) : measure (nat * (nat * xf)) :=
  match j with
  | 0 => summing [(duo_start 0, (1 / 3)%R); (duo_start 1, (2 / 3)%R)]
  | 1 => try_points
  | _ => summing (flat_map (fun p => map (fun x => (duo_end (fst (fst p)) (snd (fst p)) x, (snd p * (1 / 2))%R)) [(1 / 2)%R; (3 / 2)%R]) shots)
  end.
Notation half := (fun _ : nat => Fin (ln (1 / 2))).
Lemma duo_draws k : fit_draws (duo_env k) (fun _ _ _ => 0) duo_advance try_pick try_cand (fun _ => try_filt) 2 100 0 k duo_sched [tt; tt] half try_density.
Proof.
  assert (Q : forall i r, r < 4 -> (4 + i * 4 + r - 4) / 4 = i) by (intros i r Hr; replace (4 + i * 4 + r - 4) with (r + i * 4) by lia; rewrite Nat.div_add by lia; now rewrite Nat.div_small).
  constructor; try reflexivity.
  - intros a w j b t y f Hj. cbn [List.length] in Hj. destruct j as [|[|j]]; [reflexivity| |lia]. cbn [position duo_sched Nat.eqb]. unfold duo_env. cbn [e_step].
    replace (1 + 1 + (2 + k * (3 + 1))) with (4 + k * 4) by lia. rewrite Nat.eqb_refl. reflexivity.
  - intros a w j q Hj Sj. unfold duo_sched in Sj. apply Nat.eqb_eq in Sj. subst j. cbn [position firstn]. constructor; try reflexivity; intros u m i; unfold duo_env, set_at; cbn [Nat.eqb fst snd].
    + intros k0. cbn [e_sample List.length seq]. replace (1 + 1 + 2 + i * (3 + 1)) with (4 + i * 4 + 0) by lia. now rewrite Q by lia.
    + intros b t. unfold alone, alone_on, try_filt. cbn [e_step e_init List.length fst snd xadd]. replace (S (1 + 1 + 2 + i * (3 + 1) + 1)) with (4 + i * 4 + 2) by lia.
      replace (4 + i * 4 + 2 =? 1) with false by (symmetry; apply Nat.eqb_neq; lia). replace (4 + i * 4 + 2 =? 4 + k * 4) with false by (symmetry; apply Nat.eqb_neq; lia). now rewrite Q by lia.
    + cbn [e_uniforms List.length]. replace (1 + 1 + 2 + i * (3 + 1) + 2 + 1) with (4 + i * 4 + 3) by lia. now rewrite Q by lia.
Qed.
Lemma try_reversible G : reversible try_points tries (proposed try_cand try_filt 0) G.
Proof.
  intros g m m' _ [_ H1] [_ H2]. cbn [integral try_points summing] in H1, H2. rewrite map_map in H1, H2. cbn [fst snd] in H1, H2.
  assert (S0 : forall f : nat * (nat * xf) -> R, mean tries (fun d => f (proposed try_cand try_filt 0 d (0, (1, Fin 0)))) = fold_right Rplus 0%R (map (fun p => (snd p * f (try_point (fst (fst p)) (snd (fst p))))%R) shots))
    by (intros f; apply (tries_slot (fun t x => f (try_point t x))%R 0)).
  assert (H1' : fold_right Rplus 0%R (map (fun q => (snd q * fold_right Rplus 0 (map (fun p => snd p * g (try_point (fst (fst q)) (snd (fst q))) (try_point (fst (fst p)) (snd (fst p)))) shots))%R) shots) = m).
  { rewrite <- H1. f_equal. apply map_ext. intros q. f_equal. symmetry. apply (S0 (fun z' => g _ z')). }
  assert (H2' : fold_right Rplus 0%R (map (fun q => (snd q * fold_right Rplus 0 (map (fun p => snd p * g (try_point (fst (fst p)) (snd (fst p))) (try_point (fst (fst q)) (snd (fst q)))) shots))%R) shots) = m').
  { rewrite <- H2. f_equal. apply map_ext. intros q. f_equal. symmetry. apply (S0 (fun z' => g z' _)). }
  rewrite <- H1', <- H2'. clear. cbn [shots map fold_right fst snd]. lra.
Qed.
Lemma duo_targets : targets duo_prior duo_noise tries duo_rows (fun _ _ _ => 0) duo_advance try_cand (fun _ => try_filt) 2 duo_sched [tt; tt] half try_density duo_points (fun _ _ => True) (fun _ _ => True).
Proof.
  assert (S1 : forall j, duo_sched j = true -> j = 0) by (intros j; apply Nat.eqb_eq).
  constructor.
  - intros h m _ <-. split; [exact I|]. unfold duo_prior, duo_rows, at_slot, target, posterior, Rsum. cbn [integral duo_points summing finite mean map fold_right fst snd seq nth_error xsub xopp xadd mass duo_start INR].
    fold (duo_start 0). fold (duo_start 1). cbn [try_density]. rewrite !exp_0. unfold Rminus. rewrite !exp_plus, !exp_Ropp, !exp_ln by lra. field.
  - intros a Ha. split; [reflexivity|]. destruct Ha as (p & Hp). cbn [duo_prior] in Hp. apply in_map_iff in Hp as (a' & Ea & Hp). injection Ea as -> _.
    intros b t Et. assert (Ht : t = 0 \/ t = 1) by (cbn in Hp; destruct Hp as [<-|[<-|[<-|[<-|[]]]]]; destruct b as [|[|b]]; cbn in Et; try injection Et as <-; auto; destruct b; discriminate).
    cbn [duo_points among summing]. destruct Ht as [->| ->]; eexists; [left|right; left]; reflexivity.
  - intros j y h m Ey _ Hm. destruct y. destruct j as [|[|j]]; [| |destruct j; discriminate]; cbn [integral duo_points summing try_points] in *; rewrite <- Hm; clear.
    + rewrite map_map. unfold duo_noise. cbn [finite mean shots map fold_right fst snd duo_start advanced duo_advance duo_slot xadd]. unfold try_point, advanced, duo_advance, duo_start. cbn [fst snd duo_slot xadd]. field.
    + rewrite map_map. unfold duo_noise. cbn [finite mean shots flat_map app map fold_right fst snd duo_start advanced duo_advance duo_slot xadd]. unfold try_point, duo_end, advanced, duo_advance. cbn [fst snd duo_slot xadd]. field.
  - intros j y z q b Ey Hz Hq Hb. split; [|exact I]. destruct y. assert (Hq' : forall b, duo_slot q b = (1 / 2)%R \/ duo_slot q b = (3 / 2)%R).
    { destruct Hq as (p & Hq). cbn in Hq. destruct Hq as [X|[X|[X|[X|[]]]]]; injection X as <- _; intros [|b']; cbn; auto. }
    destruct j as [|[|j]]; [| |destruct j; discriminate].
    + cbn [duo_points among summing] in Hz. destruct Hz as (p & Hz). assert (Ht : z = duo_start 0 \/ z = duo_start 1) by (destruct Hz as [X|[X|[]]]; injection X as <- _; auto). clear Hz.
      cbn [duo_points]. unfold try_points. cbn [among summing]. unfold advanced, duo_advance. cbn [fst snd].
      destruct Ht as [->| ->]; cbn [fst snd duo_start xadd]; destruct (Hq' b) as [->| ->]; eexists; cbn [shots map fst snd]; [left|right; left|right; right; left|right; right; right; left]; reflexivity.
    + cbn [duo_points] in Hz. destruct Hz as (p & Hz). apply in_map_iff in Hz as (q0 & X & Hz). injection X as <- _. cbn [duo_points among summing]. exists (snd q0 * (1 / 2))%R. apply in_flat_map. exists q0. split; [exact Hz|].
      apply in_map_iff. exists (duo_slot q b). split; [reflexivity|]. destruct (Hq' b) as [->| ->]; cbn; auto.
  - intros j y h Ey _. split; [exact I|]. intros z b Hz Hb. split; [exact I|]. unfold future, duo_noise. cbn [finite mean map fold_right fst snd]. unfold gain, advanced, duo_advance. destruct b as [|b]; cbn [fst snd duo_slot]; lra.
  - intros j z Hz. split; [exact I|]. destruct j as [|[|j]]; destruct Hz as (p & Hz).
    + destruct Hz as [X|[X|[]]]; injection X as <- _; exact I.
    + apply in_map_iff in Hz as (q & X & _). injection X as <- _. exact I.
    + apply in_flat_map in Hz as (q & _ & Hz). apply in_map_iff in Hz as (x & X & _). injection X as <- _. exact I.
  - intros j _ b g m Hb [_ <-]. split; [exact I|]. unfold try_filt. exact (eq_trans (tries_slot (fun t x => g (try_point t x)) b) (eq_sym (tries_slot (fun t x => g (try_point t x)) 0))).
  - intros j b d z Sj _ Hd _. rewrite (S1 j Sj). cbn [duo_points]. now apply tries_among.
  - intros j Sj. rewrite (S1 j Sj). cbn [duo_points]. apply try_reversible.
  - intros j b Sj _. rewrite (S1 j Sj). cbn [duo_points]. constructor; [now intros|intros; exact I|intros; eexists; split; [intros; exact I|reflexivity]|intros; eexists; split; [intros; exact I|reflexivity]|intros; exact I].
Qed.
Definition duo_moves : @stream ((nat * R) * (nat * R)) (list R) := fun _ => (((0, (1 / 2)%R), (0, (1 / 2)%R)), [(1 / 2)%R; (1 / 2)%R]).
Definition duo_base : nat -> duo_block := fun _ => (((1 / 2)%R, (1 / 2)%R), ((1 / 2)%R, duo_moves)).
Lemma pair_uniform : supp (uniforms 2) [(1 / 2)%R; (1 / 2)%R].
Proof. exists (fun _ => (1 / 2)%R). split; [|reflexivity]. apply supp_independent. intros k. cbn. lra. Qed.
Example C112_nonvacuous : forall k cbs,
  averages (all_draws duo_prior duo_noise uniform tries 2 k [tt; tt] duo_moves duo_base)
    (fun q => whole_fit (duo_env k (fst q) (snd q)) (Plain (SMC2 (duo_cfg k))) cbs 100 0 (duo_rows (fst q)) [tt; tt] (fun z => INR (fst z + 1))) (1 / 2 + exp 2)%R.
Proof.
  intros k cbs. assert (Pm : possible tries (uniforms 2) duo_moves).
  { intros i. split; [|exact pair_uniform]. exists (1 / 6 * (1 / 6))%R. cbn [tries shots flat_map map app fst snd]. now left. }
  refine (C112_exact nat nat unit unit (nat * nat) (R * R) R ((nat * R) * (nat * R)) (duo_env k) duo_prior duo_noise uniform tries duo_rows (fun _ _ _ => 0) duo_advance try_pick try_cand (fun _ => try_filt) (duo_cfg k) 2 100 0 duo_sched [tt; tt] half try_density
    duo_points (fun _ _ => True) (fun _ _ => True) cbs duo_moves duo_base (fun z => INR (fst z + 1)) (1 / 2 + exp 2)%R _ _ uniform_ok tries_ok _ (duo_draws k) duo_targets (C108_systematic _ 2 Nat.lt_0_2) Nat.lt_0_2 _ eq_refl _ Pm _ I _).
  - apply finite_ok. unfold Rsum. cbn. lra.
  - apply finite_ok. unfold Rsum. cbn. lra.
  - intros [|[|j]]; apply summing_ok.
  - cbn. lra.
  - intros j. unfold duo_sched. destruct j as [|j]; cbn; lra.
  - intros j. split; [exists (1 / 4)%R; now left|]. split; [cbn; lra|exact Pm].
  - cbn [integral duo_points summing List.length shots flat_map map app fst snd fold_right]. unfold target, posterior, duo_end. cbn [fst snd xsub xopp xadd mass try_density INR Nat.add].
    unfold Rminus. repeat rewrite exp_plus. rewrite !exp_Ropp, !exp_ln by lra. rewrite !exp_0. replace (exp 2) with (exp 1 * exp 1)%R by (rewrite <- exp_plus; f_equal; lra). field.
Qed.
Print Assumptions C112_nonvacuous.

(** * When the effective sample size decides *)
(** Two parameters, one observation, of which the likelihood (1 or 3) is known exactly; prior and candidates: parameter 1 with
    chance 1/3; rejuvenation if the effective sample size is below 90%. *)
Definition ess_like (t : nat) : R := match t with 0 => 1%R | _ => 3%R end.
Definition ess_density (t : nat) : R := match t with 0 => ln (2 / 3) | _ => ln (1 / 3) end.
Definition ess_pairs : law (nat * nat) := finite [((0, 0), (4 / 9)%R); ((0, 1), (2 / 9)%R); ((1, 0), (2 / 9)%R); ((1, 1), (1 / 9)%R)].
Definition ess_cand (d : nat * nat) (b : nat) : nat := match b with 0 => fst d | _ => snd d end.
Definition ess_advance (q : unit) (b t : nat) (y : unit) (f : nat) : nat * xf := (S f, Fin (ln (ess_like t))).
Definition ess_filt (d : nat * nat) (b t : nat) : nat * xf := (1, Fin (0 + ln (ess_like t))%R).
Definition ess_cfg : smc2_cfg := Smc2Cfg (fun _ => (9 / 10)%R) 1 0%R 2 None.
Notation ess_block := (@block unit R (nat * nat)).
Definition ess_env (a : nat * nat) (w : nat -> ess_block) : env nat nat unit unit :=
  let moves r := snd (snd (w 0)) ((r - 4) / 4) in
  Env nat nat unit unit (-1000)%R 2 (fun r np b built now => 0) (fun r np b built now y f => ess_advance tt b now y f)
    (fun r p => try_pick (fst (snd (w 0))) p) (fun r rows w idx => rows) (fun r => [true; false])
    (fun rows w fs => tt) (fun k rows => map (fun t => Fin (ess_density t)) rows) (fun k k' m => tt) (fun r k => map (ess_cand (fst (moves r))) [0; 1]) (fun r => snd (moves r)) (fun t => Fin (ess_density t)) (fun a b => 0%R).
Definition ess_point (t : nat) : nat * (nat * xf) := (t, (1, Fin (0 + ln (ess_like t))%R)).
Definition ess_points (j : nat) : measure (nat * (nat * xf)) :=
  match j with 0 => summing [(duo_start 0, (2 / 3)%R); (duo_start 1, (1 / 3)%R)] | _ => summing [(ess_point 0, (2 / 3)%R); (ess_point 1, (1 / 3)%R)] end.
Notation ess_prior := (fun t => Fin (ess_density t)).
Definition ess_unit : law unit := finite [(tt, 1%R)].
Lemma ess_pairs_ok : law_ok ess_pairs. Proof. apply finite_ok. unfold Rsum. cbn. lra. Qed.
Lemma ess_unit_ok : law_ok ess_unit. Proof. apply finite_ok. unfold Rsum. cbn. lra. Qed.
Lemma ess_draws sched : fit_draws ess_env (fun _ _ _ => 0) ess_advance try_pick ess_cand (fun _ => ess_filt) 2 100 0 1 sched [tt] ess_prior ess_density.
Proof.
  assert (Q : forall i r, r < 4 -> (4 + i * 4 + r - 4) / 4 = i) by (intros i r Hr; replace (4 + i * 4 + r - 4) with (r + i * 4) by lia; rewrite Nat.div_add by lia; now rewrite Nat.div_small).
  constructor; try reflexivity.
  intros a w j q Hj Sj. cbn [List.length] in Hj. assert (j = 0) as -> by lia. cbn [position firstn]. constructor; try reflexivity; intros u m i; unfold ess_env, set_at; cbn [Nat.eqb fst snd].
  - intros k0. cbn [e_sample List.length seq]. replace (1 + 1 + 2 + i * (3 + 1)) with (4 + i * 4 + 0) by lia. now rewrite Q by lia.
  - cbn [e_uniforms List.length]. replace (1 + 1 + 2 + i * (3 + 1) + 2 + 1) with (4 + i * 4 + 3) by lia. now rewrite Q by lia.
Qed.
Lemma ess_target t : t < 2 -> target ess_prior ess_density (ess_point t) = ess_like t.
Proof.
  intros Ht. unfold target, posterior, ess_point. cbn [fst snd xsub xopp xadd mass]. rewrite Rplus_opp_r, exp_0, Rplus_0_l, exp_ln; [ring|]. destruct t; cbn; lra.
Qed.
Lemma ess_among b d : supp ess_pairs d -> among (ess_points 1) (ess_cand d b, ess_filt d b (ess_cand d b)).
Proof.
  intros (p & Hd). assert (Ht : ess_cand d b = 0 \/ ess_cand d b = 1) by (cbn in Hd; destruct Hd as [X|[X|[X|[X|[]]]]]; injection X as <- _; destruct b; cbn; auto).
  change (among (ess_points 1) (ess_point (ess_cand d b))). cbn [ess_points among summing]. destruct Ht as [->| ->]; eexists; [left|right; left]; reflexivity.
Qed.
Lemma ess_mean (f : nat -> R) b : mean ess_pairs (fun d => f (ess_cand d b)) = (2 / 3 * f 0%nat + 1 / 3 * f 1%nat)%R.
Proof. unfold ess_pairs. cbn [finite mean map fold_right fst snd]. destruct b; cbn [ess_cand fst snd]; lra. Qed.
Lemma ess_targets sched : targets ess_pairs ess_unit ess_pairs duo_rows (fun _ _ _ => 0) ess_advance ess_cand (fun _ => ess_filt) 2 sched [tt] ess_prior ess_density ess_points (fun _ _ => True) (fun _ _ => True).
Proof.
  constructor.
  - intros h m _ <-. split; [exact I|]. unfold ess_pairs, duo_rows, at_slot, target, posterior, Rsum. cbn [integral ess_points summing finite mean map fold_right fst snd seq nth_error xsub xopp xadd mass duo_start INR].
    fold (duo_start 0). fold (duo_start 1). rewrite !Rplus_opp_r, !exp_0. field.
  - intros a Ha. split; [reflexivity|]. destruct Ha as (p & Hp).
    intros b t Et. assert (Ht : t = 0 \/ t = 1) by (cbn in Hp; destruct Hp as [X|[X|[X|[X|[]]]]]; injection X as <- _; destruct b as [|[|b]]; cbn in Et; try injection Et as <-; auto; destruct b; discriminate).
    cbn [ess_points among summing]. destruct Ht as [->| ->]; eexists; [left|right; left]; reflexivity.
  - intros j y h m Ey _ Hm. destruct y. destruct j as [|j]; [|destruct j; discriminate]. cbn [integral ess_points summing] in *. rewrite <- Hm. clear. unfold ess_unit. cbn [finite mean map fold_right fst snd]. unfold ess_point, advanced, ess_advance, duo_start. cbn [fst snd xadd]. field.
  - intros j y z q b Ey Hz Hq Hb. split; [|exact I]. destruct y. destruct j as [|j]; [|destruct j; discriminate].
    cbn [ess_points among summing] in Hz. destruct Hz as (p & Hz). assert (Ht : z = duo_start 0 \/ z = duo_start 1) by (destruct Hz as [X|[X|[]]]; injection X as <- _; auto). clear Hz.
    cbn [ess_points among summing]. unfold advanced, ess_advance. destruct Ht as [->| ->]; eexists; [left|right; left]; reflexivity.
  - intros j y h Ey _. split; [exact I|]. intros z b Hz Hb. split; [exact I|reflexivity].
  - intros j z Hz. split; [exact I|]. destruct j as [|j]; destruct Hz as (p & [X|[X|[]]]); injection X as <- _; exact I.
  - intros j _ b g m Hb [_ <-]. split; [exact I|]. unfold ess_filt. exact (eq_trans (ess_mean (fun t => g (ess_point t)) b) (eq_sym (ess_mean (fun t => g (ess_point t)) 0))).
  - intros j b d z Sj _ Hd _. now apply ess_among.
  - intros j Sj g m m' _ [_ H1] [_ H2]. cbn [integral ess_points summing map fold_right fst snd] in H1, H2.
    assert (S0 : forall f : nat * (nat * xf) -> R, mean ess_pairs (fun d => f (proposed ess_cand ess_filt 0 d (ess_point 0))) = (2 / 3 * f (ess_point 0%nat) + 1 / 3 * f (ess_point 1%nat))%R) by (intros f; apply (ess_mean (fun t => f (ess_point t)) 0)).
    change (proposed ess_cand ess_filt 0) with (fun d (_ : nat * (nat * xf)) => proposed ess_cand ess_filt 0 d (ess_point 0)) in H1, H2. cbv beta in H1, H2. rewrite !S0 in H1.
    rewrite (S0 (fun z => g z (ess_point 0))), (S0 (fun z => g z (ess_point 1))) in H2. lra.
  - intros j b Sj _. constructor; [now intros|intros; exact I|intros; eexists; split; [intros; exact I|reflexivity]|intros; eexists; split; [intros; exact I|reflexivity]|intros; exact I].
Qed.
Lemma ess_value lowest x y e arg : get_ess lowest [Fin x; Fin y] false = Ok (Fin e, arg) ->
  e = ((exp x + exp y) * (exp x + exp y) / (exp x * exp x + exp y * exp y))%R.
Proof.
  intros Hg. pose proof (exp_pos x) as Px. pose proof (exp_pos y) as Py. pose (l := [x; y]).
  assert (Ps : prob_vec (map (fun r => exp r / Rsum (map exp l))%R l)).
  { unfold l, Rsum. split; cbn [map fold_right].
    - intros z [<-|[<-|[]]]; apply Rmult_le_pos; try lra; apply Rlt_le, Rinv_0_lt_compat; lra.
    - unfold Rsum. cbn [map fold_right]. field. lra. }
  destruct (get_ess_fin lowest _ Ps) as [Eg _]. change [Fin x; Fin y] with (map Fin l) in Hg. unfold get_ess in *. rewrite (normalize_fin lowest l) in Hg by discriminate. cbn [bind] in *.
  rewrite <- (map_map (fun r => exp r / Rsum (map exp l))%R Fin) in Hg.
  match type of Eg with Ok (?u, _) = Ok (?v, _) => assert (Eu : u = v) by congruence; rewrite Eu in Hg end. injection Hg as <- _. unfold l, Rsum. cbn [map fold_right]. field. repeat split; nra.
Qed.
Definition ess_base : nat -> ess_block := fun _ => (tt, ((1 / 2)%R, fun _ => ((0, 0), [(1 / 2)%R; (1 / 2)%R]))).
Lemma ess_base_ok : possible ess_pairs (uniforms 2) (snd (snd (ess_base 0))) /\ forall j, supp (blocks ess_unit uniform ess_pairs 2 1 (snd (snd (ess_base 0)))) (ess_base j).
Proof.
  assert (P : possible ess_pairs (uniforms 2) (snd (snd (ess_base 0)))) by (intros i; split; [exists (4 / 9)%R; now left|exact pair_uniform]). split; [exact P|].
  intros j. split; [exists 1%R; now left|]. split; [cbn; lra|exact P].
Qed.
Lemma ess_given (s : bool) cbs a h : supp ess_pairs a ->
  triggers ess_cfg 2 (fun _ => s) 0 (-1000)%R (absorbed ess_advance 2 tt tt (start duo_rows (fun _ _ _ => 0) 2 a)) ->
  averages (independent (blocks ess_unit uniform ess_pairs 2 1 (snd (snd (ess_base 0)))) 1 ess_base) (fun w => whole_fit (ess_env a w) (Plain (SMC2 ess_cfg)) cbs 100 0 (duo_rows a) [tt] h)
    (V 2 (onto_next ess_unit ess_pairs ess_advance ess_cand (fun _ => ess_filt) ess_cfg (fun _ => s) [tt] ess_prior ess_density 0 h) (start duo_rows (fun _ _ _ => 0) 2 a)).
Proof.
  intros Ha Tr. destruct ess_base_ok as [Pb Sb]. assert (Acc : (c_accept ess_cfg <= 0)%R) by (cbn; lra).
  pose proof (blocks_ok ess_unit uniform ess_pairs ess_unit_ok uniform_ok ess_pairs_ok ess_cfg 2 _ Pb) as Bo.
  pose proof (after_mean ess_env ess_pairs ess_unit uniform ess_pairs ess_unit_ok uniform_ok ess_pairs_ok duo_rows (fun _ _ _ => 0) ess_advance try_pick ess_cand (fun _ => ess_filt) ess_cfg 2 100 0 (fun _ => s) [tt] ess_prior ess_density
    ess_points (fun _ _ => True) (fun _ _ => True) (ess_targets _) (C108_systematic _ 2 Nat.lt_0_2) Nat.lt_0_2 Acc eq_refl (ess_draws _) a ess_base _ h Ha Sb Pb I 1 (le_n _)) as Am.
  refine (averages_ext _ (independent_ok _ Bo ess_base Sb 1) _ _ _ _ Am). intros w Hw. rewrite supp_independent in Hw. symmetry.
  apply (whole_is ess_env ess_pairs ess_unit uniform ess_pairs duo_rows (fun _ _ _ => 0) ess_advance try_pick ess_cand (fun _ => ess_filt) ess_cfg 2 100 0 (fun _ => s) [tt] ess_prior ess_density
    ess_points (fun _ _ => True) (fun _ _ => True) (ess_targets _) (C108_systematic _ 2 Nat.lt_0_2) Nat.lt_0_2 Acc eq_refl a w (drawn_all _ _ _ _ _ _ ess_cfg _ _ _ _ _ _ _ (ess_draws _) a w) cbs h Ha).
  - exact Hw.
  - intros j y Ey. destruct j as [|j]; [|destruct j; discriminate]. destruct y. cbn [after]. destruct (fst (w 0)). exact Tr.
Qed.
Definition ess_chosen (z : nat * (nat * xf)) : R := INR (fst z).
Definition ess_step (s : bool) := onto_next ess_unit ess_pairs ess_advance ess_cand (fun _ => ess_filt) ess_cfg (fun _ => s) [tt] ess_prior ess_density 0 ess_chosen.
Lemma ess_start s a : V 2 (ess_step s) (start duo_rows (fun _ _ _ => 0) 2 a) = ((ess_step s (duo_start (fst a)) + ess_step s (duo_start (snd a))) / 2)%R.
Proof. unfold V, weights_sum, Rsum, start, particle_value, duo_rows. cbn [p_z p_ws p_ctx p_fs fst snd repeat seq map combine fold_right nth nth_error INR]. rewrite exp_0. fold (duo_start (fst a)). fold (duo_start (snd a)). field. Qed.
Lemma ess_quiet t : ess_step false (duo_start t) = (ess_like t * INR t)%R.
Proof. unfold ess_step, onto_next, future, gain, advanced, ess_advance, ess_unit, ess_chosen, duo_start. cbn [nth_error finite mean map fold_right fst snd mass]. rewrite exp_ln; [ring|]. destruct t; cbn; lra. Qed.
Lemma ess_moved : ess_step true (duo_start 0) = (1 / 3)%R /\ ess_step true (duo_start 1) = (7 / 3)%R.
Proof.
  assert (E0 : target ess_prior ess_density (ess_point 0) = 1%R) by (apply (ess_target 0); lia). assert (E1 : target ess_prior ess_density (ess_point 1) = 3%R) by (apply (ess_target 1); lia).
  assert (S0 : forall f : nat * (nat * xf) -> R, forall z, mean ess_pairs (fun d => f (proposed ess_cand ess_filt 0 d z)) = (2 / 3 * f (ess_point 0%nat) + 1 / 3 * f (ess_point 1%nat))%R) by (intros f z; apply (ess_mean (fun t => f (ess_point t)) 0)).
  assert (C : chance 1 1 = 1%R /\ chance 3 1 = 1%R /\ chance 1 3 = (1 / 3)%R /\ chance 3 3 = 1%R).
  { unfold chance, Rmin. repeat split; repeat (destruct (Req_EM_T _ _); try lra); destruct (Rle_dec _ _); lra. }
  destruct C as (C1 & C2 & C3 & C4).
  assert (L3 : forall t, t < 2 -> exp (ln (ess_like t)) = ess_like t) by (intros t _; apply exp_ln; destruct t; cbn; lra).
  split; unfold ess_step, onto_next, future, gain, ess_unit; cbn [nth_error finite mean map fold_right fst snd]; unfold advanced, ess_advance; cbn [fst snd duo_start xadd mass c_steps ess_cfg].
  - change (after_moves ess_pairs ess_cand ess_filt ess_prior ess_density 0 1 ess_chosen) with (fun z => mean ess_pairs (fun d => moved (target ess_prior ess_density) ess_chosen z (proposed ess_cand ess_filt 0 d z))). cbv beta. fold (ess_point 0). rewrite (S0 (fun z' => moved (target ess_prior ess_density) ess_chosen (ess_point 0) z')). unfold moved. rewrite E0, E1, C1, C2, (L3 0) by lia. unfold ess_chosen. cbn. field.
  - change (after_moves ess_pairs ess_cand ess_filt ess_prior ess_density 0 1 ess_chosen) with (fun z => mean ess_pairs (fun d => moved (target ess_prior ess_density) ess_chosen z (proposed ess_cand ess_filt 0 d z))). cbv beta. fold (ess_point 1). rewrite (S0 (fun z' => moved (target ess_prior ess_density) ess_chosen (ess_point 1) z')). unfold moved. rewrite E0, E1, C3, C4, (L3 1) by lia. unfold ess_chosen. cbn. field.
Qed.
Lemma ess_trigger (s : bool) a : (if s then fst a < 2 /\ snd a < 2 /\ fst a <> snd a else fst a = snd a) -> triggers ess_cfg 2 (fun _ => s) 0 (-1000)%R (absorbed ess_advance 2 tt tt (start duo_rows (fun _ _ _ => 0) 2 a)).
Proof.
  destruct a as [x y]. intros Hs e arg. unfold absorbed, slots, start, duo_rows, ess_advance. cbn [p_ws p_ctx p_fs fst snd repeat seq map combine num]. rewrite !Rplus_0_l. intros Ee. apply ess_value in Ee.
  assert (P : forall t, (0 < ess_like t)%R) by (intros [|t]; cbn; lra). rewrite !exp_ln in Ee by apply P. cbn [c_threshold ess_cfg INR fst snd] in *. destruct s.
  - destruct Hs as (Hx & Hy & Hn). replace e with (16 / 10)%R; [cbn; lra|]. rewrite Ee. destruct x as [|[|x]], y as [|[|y]]; try lia; cbn; field.
  - subst y. replace e with 2%R; [cbn; lra|]. rewrite Ee. pose proof (P x). field. nra.
Qed.

(** If the effective sample size decides whether to rejuvenate, the fit is biased. *)
Theorem C112_adaptive_refuted : ~ (forall (T F Y K A Q U D : Type) (E : A -> (nat -> @block Q U D) -> env T F Y K) (LA : law A) (LQ : law Q) (LU : law U) (L : law D)
    rows init advance pick cand filt c B np rnd ys log_prior log_density (M : nat -> measure (T * (F * xf))) G H cbs base w0 h m,
  law_ok LA -> law_ok LQ -> law_ok LU -> law_ok L -> (forall j, measure_ok (M j)) ->
  (forall sched, fit_draws E init advance pick cand filt B np rnd (c_steps c) sched ys log_prior log_density) ->
  (forall sched, targets LA LQ L rows init advance cand filt B sched ys log_prior log_density M G H) ->
  fair_pick LU pick B -> 0 < B -> (c_accept c <= 0)%R -> c_dist c = None -> (forall i, 0 < c_threshold c i < 1)%R ->
  possible L (uniforms B) base -> (forall j, supp (blocks LQ LU L B (c_steps c) base) (w0 j)) ->
  H (List.length ys) h -> integral (M (List.length ys)) (fun z => target log_prior log_density z * h z)%R m ->
  averages (all_draws LA LQ LU L B (c_steps c) ys base w0) (fun q => whole_fit (E (fst q) (snd q)) (Plain (SMC2 c)) cbs np rnd (rows (fst q)) ys h) m).
Proof.
  intros X. destruct ess_base_ok as [Pb Sb].
  specialize (X nat nat unit unit (nat * nat)%type unit R (nat * nat)%type ess_env ess_pairs ess_unit uniform ess_pairs duo_rows (fun _ _ _ => 0) ess_advance try_pick ess_cand (fun _ => ess_filt) ess_cfg 2 100 0 [tt] ess_prior ess_density
    ess_points (fun _ _ => True) (fun _ _ => True) [] (snd (snd (ess_base 0))) ess_base ess_chosen 1%R ess_pairs_ok ess_unit_ok uniform_ok ess_pairs_ok).
  assert (Mo : forall j, measure_ok (ess_points j)) by (intros [|j]; apply summing_ok). assert (Acc : (c_accept ess_cfg <= 0)%R) by (cbn; lra). assert (Th : forall i, (0 < c_threshold ess_cfg i < 1)%R) by (intros i; cbn; lra).
  specialize (X Mo ess_draws ess_targets (C108_systematic _ 2 Nat.lt_0_2) Nat.lt_0_2 Acc eq_refl Th Pb Sb I).
  assert (Ix : integral (ess_points (List.length [tt])) (fun z => target ess_prior ess_density z * ess_chosen z)%R 1%R).
  { cbn [List.length ess_points integral summing map fold_right fst snd]. rewrite (ess_target 0), (ess_target 1) by lia. unfold ess_chosen. cbn. field. }
  specialize (X Ix).
  pose proof (blocks_ok ess_unit uniform ess_pairs ess_unit_ok uniform_ok ess_pairs_ok ess_cfg 2 _ Pb) as Bo.
  pose proof (independent_ok _ Bo ess_base Sb 1) as Io.
  pose (s := fun a : nat * nat => negb (fst a =? snd a)).
  assert (Y : averages (all_draws ess_pairs ess_unit uniform ess_pairs 2 1 [tt] (snd (snd (ess_base 0))) ess_base) (fun q => whole_fit (ess_env (fst q) (snd q)) (Plain (SMC2 ess_cfg)) [] 100 0 (duo_rows (fst q)) [tt] ess_chosen) (25 / 27)%R).
  { apply (and_then_is ess_pairs _ ess_pairs_ok Io _ (fun a => V 2 (ess_step (s a)) (start duo_rows (fun _ _ _ => 0) 2 a))).
    - intros a Ha. apply (ess_given (s a) [] a ess_chosen Ha). apply ess_trigger. unfold s. destruct Ha as (p & Hp). cbn in Hp. destruct Hp as [Z|[Z|[Z|[Z|[]]]]]; injection Z as <- _; cbn; lia.
    - destruct ess_moved as [M0 M1]. split; [exact I|]. unfold ess_pairs. cbn [finite mean map fold_right fst snd]. rewrite !ess_start. unfold s. cbn [fst snd Nat.eqb negb]. rewrite !ess_quiet, M0, M1. cbn. field. }
  pose proof (averages_unique _ _ _ _ X Y). lra.
Qed.
Print Assumptions C112_adaptive_refuted.
