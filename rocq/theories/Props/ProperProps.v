(** Property C105 (pyfilter/inference/sequential: base.py, state.py, ness.py, smc2.py, kernels/mh.py): the weights of the
    parameter particles are right on average. *)
From Coq Require Import Reals List Bool Arith Lia Lra.
From Verif.Model Require Import Base Xf Weights Pmmh Sequential.
From Verif.Spec Require Import ParticleSpec PmmhSpec SequentialSpec UnbiasedSpec StationarySpec ConvergeSpec ProperSpec.
From Verif.Proofs Require Import WeightsProofs SequentialProofs UnbiasedProofs BackwardProofs SequentialToy.
From Verif.Props Require Import PmmhProps SequentialProps SequentialMoves SequentialWeights SequentialDispatch StationaryProps.
Import ListNotations.
Local Open Scope nat_scope.

Section Quiet.
  Context {T F Y K : Type} (E : env T F Y K) (OK : env_ok E) (TA : tame E).
  Notation B := (e_B E).
  Definition all_fin (w : list xf) : Prop := Forall is_fin w.
  Lemma usable w : all_fin w -> ~ unusable w.
  Proof. intros H (x & I1 & I2). unfold all_fin in H. rewrite Forall_forall in H. specialize (H x I1). destruct x; contradiction. Qed.
  Lemma not_low frac ess : ess_ok ess -> (frac * INR B <= 1)%R -> ~ low_ess frac B ess.
  Proof. intros [_ Fo] H (l & e & -> & L). apply Forall_app in Fo as [_ Fo]. inversion Fo as [|? ? [C|(r & C & L')] _]; subst; [discriminate|]. injection C as ->. lra. Qed.
  Lemma fin_sums w inc : all_fin w -> all_fin inc -> all_fin (zip_with (add_weight (e_lowest E)) w inc).
  Proof.
    unfold all_fin, zip_with. rewrite !Forall_forall. intros Hw Hi x Hx. apply in_map_iff in Hx. destruct Hx as ([a c] & <- & I). specialize (Hw a (in_combine_l _ _ _ _ I)). specialize (Hi c (in_combine_r _ _ _ _ I)).
    destruct a, c; try contradiction. exact Logic.I.
  Qed.
  Lemma tame_increments rnd np built now y (fs : list (F * xf)) : all_fin (map snd (corrections E rnd np built now y fs)).
  Proof. unfold all_fin, corrections. rewrite map_map. apply Forall_map, Forall_forall. intros q _. apply TA. Qed.
  Lemma ess_more ess e : ess_ok ess -> ess_entry e -> ess_ok (ess ++ [e]).
  Proof. intros [N Fo] H. split; [destruct ess; discriminate|]. apply Forall_app. split; [exact Fo|]. now constructor. Qed.

  Lemma base_still b i g y s n : world_ok E g -> state_ok E s -> ess_ok (s_ess s) -> all_fin (s_w s) -> calm b B n -> i_blocks i < n ->
    match b with SMC2 _ => s_data s <> None | _ => True end ->
    let '(i', g', r) := base_step E b i g y s in g_updates g' = g_updates g /\ i_blocks i' <= S (i_blocks i) /\ exists s', r = Ok (Same s') /\ all_fin (s_w s') /\
      match b with SMC2 _ => s_data s' <> None | _ => True end.
  Proof.
    intros WG WS EO Fw C Hi Sd. destruct b as [thr d|bl d|c].
    - cbn [base_step do_update_particles discrete_of]. pose proof (not_low thr _ EO C) as NL. pose proof (usable _ Fw) as NU. rewrite (any_ess _ EO). cbn [andb].
      replace (xlt (newest (s_ess s)) (Fin (thr * INR B)) || nonfinite (s_w s)) with false.
      2:{ symmetry. apply orb_false_iff. split; apply not_true_is_false; [rewrite (low_iff thr B _ EO); exact NL|rewrite nonfinite_iff; exact NU]. }
      destruct (absorb_ok E OK g y s WG WS) as (_ & e & -> & _). cbn. split; [reflexivity|]. split; [lia|]. eexists. split; [reflexivity|]. split; [|exact I].
      cbn [s_w]. rewrite stored_weights. apply fin_sums; [exact Fw|apply tame_increments].
    - cbn [base_step do_update_particles discrete_of i_blocks]. pose proof (usable _ Fw) as NU. cbn in C.
      replace ((S (i_blocks i) mod bl =? 0) || nonfinite (s_w s)) with false.
      2:{ symmetry. apply orb_false_iff. split; [rewrite Nat.mod_small by lia; reflexivity|apply not_true_is_false; rewrite nonfinite_iff; exact NU]. }
      destruct (absorb_ok E OK g y s WG WS) as (_ & e & -> & _). cbn. split; [reflexivity|]. split; [lia|]. eexists. split; [reflexivity|]. split; [|exact I].
      cbn [s_w]. rewrite stored_weights. apply fin_sums; [exact Fw|apply tame_increments].
    - cbn [base_step]. destruct (s_data s) as [data|]; [|now destruct Sd]. set (s0 := St (s_w s) (s_fs s) (s_ess s) (Some (data ++ [y])) (s_iter s)). assert (W0 : state_ok E s0) by exact WS.
      destruct (absorb_ok E OK g y s0 WG W0) as (_ & e & -> & _ & Ee). cbn [s0 s_w s_fs s_ess s_data s_iter]. rewrite stored_weights.
      assert (F1 : all_fin (zip_with (add_weight (e_lowest E)) (s_w s) (map snd (corrections E (g_rnd g) (g_np g) (g_model g) (g_ctx g) y (s_fs s))))) by (apply fin_sums; [exact Fw|apply tame_increments]).
      pose proof (ess_more _ _ EO Ee) as EO1. set (frac := c_threshold c _). pose proof (not_low frac _ EO1 (C _)) as NL. pose proof (usable _ F1) as NU.
      match goal with |- context [if ?b then _ else _] => replace b with false end.
      2:{ symmetry. apply orb_false_iff. split; apply not_true_is_false; [rewrite (low_iff frac B _ EO1); exact NL|rewrite nonfinite_iff; exact NU]. }
      split; [reflexivity|]. split; [lia|]. eexists. split; [reflexivity|]. split; [exact F1|discriminate].
  Qed.
  Lemma callbacks_fin cbs y s : state_ok E s -> all_fin (s_w s) -> all_fin (s_w (snd (run_callbacks E cbs y s))).
  Proof.
    intros WS H. pose proof (callbacks_frame E OK cbs y s WS) as C. destruct (run_callbacks E cbs y s) as [calls s'] eqn:Ec. destruct C as ([L _] & _). cbn [snd].
    apply Forall_forall. intros x Hx. apply In_nth_error in Hx. destruct Hx as [b Eb]. assert (Hb : b < B) by (rewrite <- L; apply nth_error_Some; rewrite Eb; discriminate).
    destruct (nth_some (s_w s) b) as [u Eu]; [destruct WS as [-> _]; exact Hb|]. unfold all_fin in H. rewrite Forall_forall in H. pose proof (H u (nth_error_In _ _ Eu)) as Hu. destruct u as [v| | |]; try contradiction.
    pose proof (callbacks_slot E OK cbs y b v s WS Eu) as Q. rewrite Ec in Q. unfold slot in Q. cbn [snd] in Q. rewrite Eb in Q. injection Q as ->. exact I.
  Qed.
  Lemma run_still b cbs n : calm b B n -> forall ys a s, world_ok E (a_world a) -> state_ok E s -> ess_ok (s_ess s) -> all_fin (s_w s) -> i_blocks (a_first a) + List.length ys <= n ->
    match b with SMC2 _ => s_data s <> None | _ => True end ->
    exists a' s' calls, run E (Plain b) cbs a ys s = (a', Ok (s', calls)) /\ g_updates (a_world a') = g_updates (a_world a) /\ state_ok E s' /\ all_fin (s_w s').
  Proof.
    intros C. induction ys as [|y ys IH]; intros a s WG WS EO Fw Hn Sd; cbn [run]; [eauto 8|]. cbn [List.length] in Hn.
    pose proof (step_frame E OK (Plain b) cbs a y s WG WS) as Fr. pose proof (base_still b (a_first a) (a_world a) y s n WG WS EO Fw C ltac:(lia) Sd) as H.
    pose proof (base_step_frame E OK b (a_first a) (a_world a) y s WG WS) as Bf.
    unfold step in *. cbn [step_] in *. destruct (base_step E b (a_first a) (a_world a) y s) as [[i g] r]. destruct H as (U & Bl & s1 & -> & F1 & D1). cbn [seen_by_callbacks] in *.
    destruct Bf as (_ & _ & Fs & _). cbn [seen_by_callbacks] in Fs.
    pose proof (callbacks_fin cbs y s1 (proj1 Fs) F1) as F2. pose proof (callbacks_frame E OK cbs y s1 (proj1 Fs)) as Cf. destruct (run_callbacks E cbs y s1) as [calls seen]. cbn [snd] in F2.
    destruct Fr as (A1 & A2 & _ & (e & A4 & A4') & _). cbn [bump_iteration] in *. set (s2 := bump_iteration seen) in *.
    destruct (IH (Alg i (a_second a) (a_switched a) g) s2 A1 A2) as (a' & s' & calls' & Er & Eu & Eo).
    - rewrite A4. now apply ess_more.
    - exact F2.
    - cbn [a_first]. lia.
    - destruct b; [exact I|exact I|]. destruct Cf as (_ & _ & _ & Cd & _). cbn. now rewrite Cd.
    - rewrite Er. do 3 eexists. split; [reflexivity|]. cbn [a_world] in Eu. rewrite Eu. now split.
  Qed.
  Lemma alone_fin data : forall rnd np b t f, is_fin (snd f) -> is_fin (snd (alone_on E rnd np b t data f)).
  Proof. induction data as [|y data IH]; intros rnd np b t f H; cbn [alone_on]; [exact H|]. apply IH. cbn [snd]. pose proof (TA rnd np b t t y (fst f)) as H2. destruct (snd f), (snd (e_step E rnd np b t t y (fst f))); try contradiction. exact I. Qed.

  (** A fit without rejuvenation: the weight of a particle is the likelihood its filter estimates when run by itself. *)
  Lemma fit_weights b0 cbs np rnd rows ys : List.length rows = B -> calm b0 B (List.length ys) ->
    exists a s calls, fit_alg E (Plain b0) cbs (new_alg np rnd) rows rows ys = (a, Ok (s, calls)) /\ g_updates (a_world a) = 0 /\ g_ctx (a_world a) = rows /\
      List.length (s_w s) = B /\ all_fin (s_w s) /\ forall b t, nth_error rows b = Some t -> weight_at (s_w s) b = mass (snd (alone E rnd np b t ys)).
  Proof.
    intros L C. unfold fit_alg. destruct (initial_ok E OK (Plain b0) (new_alg np rnd) rows rows L L) as [e0 Ei]. 
    assert (He : ess_entry e0).
    { unfold initialize_alg, new_state in Ei. destruct (get_ess (e_lowest E) (repeat (Fin 0) B) false) as [[e w']|] eqn:Eg; [|discriminate]. injection Ei. intros; subst e0.
      refine (get_ess_range (e_lowest E) _ e w' _ Eg). apply (len_nonnil _ B); [apply repeat_length|apply OK]. }
    rewrite Ei. clear Ei. cbn [new_alg a_first a_second a_switched a_world g_np g_rnd g_updates]. set (a0 := Alg _ _ _ _). set (s0 := St _ _ _ _ _).
    assert (WG : world_ok E (a_world a0)) by (split; exact L). assert (WS : state_ok E s0) by (split; [apply repeat_length|now apply init_len]).
    destruct (run_still b0 cbs (List.length ys) C ys a0 s0 WG WS) as (a & s & calls & Er & Eu & So & Sf).
    - split; [discriminate|constructor; [exact He|constructor]].
    - apply Forall_forall. intros x Hx. apply repeat_spec in Hx. subst x. exact I.
    - cbn. lia.
    - destruct b0; cbn; [exact I|exact I|discriminate].
    - exists a, s, calls. split; [exact Er|]. split; [exact Eu|]. destruct (C82_alone E OK (Plain b0) cbs ys a0 s0 a s calls WG WS eq_refl Er Eu) as [Ec Ea]. split; [exact Ec|]. split; [apply So|]. split; [exact Sf|]. intros b t Eb.
      assert (Hb : b < B) by (rewrite <- L; apply nth_error_Some; rewrite Eb; discriminate).
      assert (E0 : slot (s_fs s0) b = Some (e_init E rnd np b t t, Fin 0)) by (unfold slot; cbn [s0 s_fs]; exact (init_nth E rnd np rows rows b t t eq_refl Eb Eb)).
      pose proof (Ea b t _ Eb E0) as Es. cbn [a0 a_world g_rnd g_np] in Es. fold (alone E rnd np b t ys) in Es.
      pose proof (alone_fin ys (S rnd) np b t (e_init E rnd np b t t, Fin 0) I) as Fi. fold (alone E rnd np b t ys) in Fi. destruct (alone E rnd np b t ys) as [f' x]. cbn [snd] in *. destruct x as [l'| | |]; try contradiction.
      assert (W0 : slot (s_w s0) b = Some (Fin 0)) by (unfold slot; cbn [s0 s_w]; rewrite (nth_error_nth' _ (Fin 0)) by (rewrite repeat_length; exact Hb); now rewrite nth_repeat).
      assert (DO : data_ok (Plain b0) s0) by (split; [exact I|]; destruct b0; cbn; try (intros; exact I); discriminate).
      pose proof (C51_accumulates E OK (Plain b0) cbs ys a0 s0 a s calls I WG WS I DO Er Eu b 0%R _ 0%R f' l' W0 E0 Es) as Q.
      unfold weight_at. unfold slot in Q. rewrite Q. cbn. f_equal. ring.
  Qed.
End Quiet.

Lemma and_then_is {A D} (LA : law A) (L : law D) (HA : law_ok LA) (HL : law_ok L) f g m :
  (forall a, supp LA a -> averages L (fun d => f (a, d)) (g a)) -> averages LA g m -> averages (and_then LA L) f m.
Proof.
  intros H1 H2. assert (H3 : averages LA (fun a => mean L (fun d => f (a, d))) m) by (apply (averages_ext LA HA g); [intros a Ha; symmetry; apply (H1 a Ha)|exact H2]).
  split; [split; [intros a Ha; apply (H1 a Ha)|apply H3]|apply H3].
Qed.
Lemma and_then_ok {A D} (LA : law A) (L : law D) : law_ok LA -> law_ok L -> law_ok (and_then LA L).
Proof.
  intros HA HL. constructor.
  - intros f g H [D1 D2]. apply (and_then_is LA L HA HL g (fun a => mean L (fun d => f (a, d)))).
    + intros a Ha. apply (averages_ext L HL (fun d => f (a, d))); [intros d Hd; apply H; now split|]. split; [now apply D1|reflexivity].
    + now split.
  - intros c. apply (and_then_is LA L HA HL (fun _ => c) (fun _ => c)); [intros; now apply averages_const|now apply averages_const].
  - intros a b f g [D1 D2] [D3 D4]. apply (and_then_is LA L HA HL (fun q => a * f q + b * g q)%R (fun x => a * mean L (fun d => f (x, d)) + b * mean L (fun d => g (x, d)))%R).
    + intros x Hx. apply averages_lin; [exact HL| |]; (split; [now apply D1 || now apply D3|reflexivity]).
    + apply averages_lin; [exact HA|now split|now split].
Qed.

(** What a fit gives: the weight of particle [b], times a function of its parameters. *)
Definition weighted_value {T F Y K} (E : env T F Y K) (b0 : base) cbs np rnd (rows : list T) (ys : list Y) (b : nat) (h : T -> R) : R :=
  match fit_alg E (Plain b0) cbs (new_alg np rnd) rows rows ys with
  | (a, Ok (s, _)) => (weight_at (s_w s) b * at_slot (g_ctx (a_world a)) b h)%R
  | (_, Raise _) => 0%R
  end.
(** No rejuvenation: on average over parameters drawn from the prior and over everything random in the filters, the
    weighted parameters are those of prior times likelihood, if the filters estimate the likelihood without bias (C86). *)
Theorem C105_proper_partial : forall (T F Y K D : Type) (E : D -> env T F Y K) B (LT : law (list T)) (L : law D) b0 cbs np rnd ys b h lik m,
  law_ok LT -> law_ok L -> (forall d, supp L d -> env_ok (E d) /\ e_B (E d) = B /\ tame (E d)) ->
  (forall rows, supp LT rows -> List.length rows = B) -> b < B -> calm b0 B (List.length ys) ->
  (forall rows t, supp LT rows -> nth_error rows b = Some t -> averages L (fun d => mass (snd (alone (E d) rnd np b t ys))) (lik t)) ->
  averages LT (fun rows => at_slot rows b (fun t => lik t * h t))%R m ->
  averages (and_then LT L) (fun q => weighted_value (E (snd q)) b0 cbs np rnd (fst q) ys b h) m.
Proof.
  intros T F Y K D E B LT L b0 cbs np rnd ys b h lik m HT HL HE Hr Hb C Hlik Hm. apply (and_then_is LT L HT HL _ _ _) with (2 := Hm). intros rows Hrows. cbn [fst snd].
  pose proof (Hr rows Hrows) as Lr. destruct (nth_error rows b) as [t|] eqn:Et; [|apply nth_error_None in Et; lia]. unfold at_slot at 1. rewrite Et.
  pose proof (averages_scal L HL (h t) _ _ (Hlik rows t Hrows Et)) as A. replace (lik t * h t)%R with (h t * lik t)%R by ring.
  refine (averages_ext L HL _ _ _ _ A). intros d Hd. destruct (HE d Hd) as (OK & EB & TA).
  destruct (fit_weights (E d) OK TA b0 cbs np rnd rows ys) as (a & s & calls & Ef & _ & Ec & _ & _ & W); [congruence|now rewrite EB|]. unfold weighted_value. rewrite Ef, Ec, (W b t Et). unfold at_slot. rewrite Et. ring.
Qed.
Print Assumptions C105_proper_partial.

(** The mean of the weights is, on average, the evidence: the likelihood averaged over the prior. *)
Theorem C105_evidence_partial : forall (T F Y K D : Type) (E : D -> env T F Y K) B (LT : law (list T)) (L : law D) b0 cbs np rnd ys (lik : nat -> T -> R) Z,
  law_ok LT -> law_ok L -> (forall d, supp L d -> env_ok (E d) /\ e_B (E d) = B /\ tame (E d)) ->
  (forall rows, supp LT rows -> List.length rows = B) -> 0 < B -> calm b0 B (List.length ys) ->
  (forall b rows t, b < B -> supp LT rows -> nth_error rows b = Some t -> averages L (fun d => mass (snd (alone (E d) rnd np b t ys))) (lik b t)) ->
  (forall b, b < B -> averages LT (fun rows => at_slot rows b (lik b)) Z) ->
  averages (and_then LT L) (fun q => / INR B * sum_below B (fun b => weighted_value (E (snd q)) b0 cbs np rnd (fst q) ys b (fun _ => 1%R)))%R Z.
Proof.
  intros T F Y K D E B LT L b0 cbs np rnd ys lik Z HT HL HE Hr HB C Hlik HZ. pose proof (and_then_ok LT L HT HL) as HJ.
  assert (S : sum_below B (fun _ => Z) = (INR B * Z)%R).
  { clear. unfold sum_below. generalize 0. induction B as [|n IH]; intros k; [cbn; ring|]. rewrite S_INR. cbn [seq map WeightsSpec.Rsum]. cbn in IH |- *. rewrite IH. ring. }
  replace Z with (/ INR B * (INR B * Z))%R by (field; apply not_0_INR; lia). rewrite <- S. apply (averages_scal _ HJ). apply (averages_sb B 1 0 Nat.lt_0_1 _ HJ (fun b q => weighted_value (E (snd q)) b0 cbs np rnd (fst q) ys b (fun _ => 1%R)) (fun _ => Z)).
  intros b Hb. apply (C105_proper_partial T F Y K D E B LT L b0 cbs np rnd ys b (fun _ => 1%R) (lik b) Z HT HL HE Hr Hb C); [intros rows t; now apply Hlik|].
  refine (averages_ext LT HT _ _ _ _ (HZ b Hb)). intros rows _. unfold at_slot. destruct (nth_error rows b); [ring|reflexivity].
Qed.
Print Assumptions C105_evidence_partial.

(** The weight of particle [b] after an increase of the state particles. *)
Definition increased {T F Y K} (E : env T F Y K) c n (g : world) (data : list Y) s (b : nat) : R :=
  match snd (increase_states E c n g data s) with Ok x => weight_at (s_w (result_of x)) b | Raise _ => 0%R end.
(** On average over the new filters it is likelihood over old estimate. *)
Theorem C105_increase_weight : forall (T F Y K D : Type) (E : D -> env T F Y K) B (L : law D) c n (g : world) data s b t f l lik,
  law_ok L -> (forall d, supp L d -> env_ok (E d) /\ e_B (E d) = B /\ tame (E d)) -> List.length (g_ctx g) = B -> List.length (g_model g) = B ->
  List.length (s_w s) = B -> List.length (s_fs s) = B -> n < c_max c -> slot (g_ctx g) b = Some t -> slot (s_fs s) b = Some (f, Fin l) ->
  averages L (fun d => mass (snd (alone (E d) (g_rnd g) (g_np g * 2) b t data))) lik ->
  averages L (fun d => increased (E d) c n g data s b) (lik / exp l)%R.
Proof.
  intros T F Y K D E B L c n g data s b t f l lik HL HE L1 L2 L3 L4 Hn Et Ef A. unfold Rdiv. rewrite Rmult_comm.
  refine (averages_ext L HL _ _ _ _ (averages_scal L HL (/ exp l) _ _ A)). intros d Hd. destruct (HE d Hd) as (OK & EB & TA). rewrite <- EB in L1, L2, L3, L4.
  destruct (increase_ok (E d) OK c n g data s (conj L1 L2) (conj L3 L4)) as [_ H]. destruct (H Hn) as (Lf & Lw & Ei). unfold increased. rewrite Ei. cbn [snd result_of s_w]. clear H Ei.
  pose proof (batch_nth (E d) (g_rnd g) (g_np g * 2) (g_ctx g) data b t Et) as Eb. pose proof (alone_fin (E d) TA data (S (g_rnd g)) (g_np g * 2) b t (e_init (E d) (g_rnd g) (g_np g * 2) b t t, Fin 0) I) as Fi.
  fold (alone (E d) (g_rnd g) (g_np g * 2) b t data) in Fi. destruct (alone (E d) (g_rnd g) (g_np g * 2) b t data) as [f' x]. cbn [snd] in *. destruct x as [l'| | |]; try contradiction.
  unfold weight_at. rewrite nth_error_map. unfold slot in Ef. rewrite (zip_nth _ _ _ b (Fin l') (Fin l)); [|now rewrite nth_error_map, Eb|now rewrite nth_error_map, Ef].
  cbn. rewrite exp_plus, exp_Ropp. ring.
Qed.
Print Assumptions C105_increase_weight.

(** If the particles follow prior times estimated likelihood ([M]: draws of the old filters [old] for every parameter), then
    after an increase the weighted parameters are those of prior times likelihood. *)
Theorem C105_increase : forall (T F Y K D0 D : Type) (E : D -> env T F Y K) B (L0 : law D0) (L : law D) (M : measure (T * (F * xf))) (M0 : measure T) (old : D0 -> T -> F * xf)
    (log_prior : T -> xf) c n (g : T * (F * xf) -> world) data (s : T * (F * xf) -> sstate) b np rnd h lik m,
  law_ok L0 -> law_ok L -> measure_ok M0 -> (forall d, supp L d -> env_ok (E d) /\ e_B (E d) = B /\ tame (E d)) -> n < c_max c ->
  (forall d t, supp L0 d -> among M0 t -> let z := (t, old d t) in is_fin (snd (snd z)) /\ List.length (g_ctx (g z)) = B /\ List.length (g_model (g z)) = B /\
    List.length (s_w (s z)) = B /\ List.length (s_fs (s z)) = B /\ slot (g_ctx (g z)) b = Some (fst z) /\ slot (s_fs (s z)) b = Some (snd z) /\ g_rnd (g z) = rnd /\ g_np (g z) = np) ->
  (forall k m, (forall t, among M0 t -> dom L0 (fun d => k (t, old d t))) -> integral M0 (fun t => mean L0 (fun d => k (t, old d t))) m -> integral M k m) ->
  (forall t, among M0 t -> averages L (fun d => mass (snd (alone (E d) rnd (np * 2) b t data))) (lik t)) ->
  integral M0 (fun t => mass (log_prior t) * lik t * h t)%R m ->
  integral M (fun z => posterior log_prior snd z * mean L (fun d => increased (E d) c n (g z) data (s z) b) * h (fst z))%R m.
Proof.
  intros T F Y K D0 D E B L0 L M M0 old lp c n g data s b np rnd h lik m H0 HL HM HE Hn Hz Hdis Hlik Hm.
  assert (A : forall t, among M0 t -> averages L0 (fun d => posterior lp snd (t, old d t) * mean L (fun d' => increased (E d') c n (g (t, old d t)) data (s (t, old d t)) b) * h t)%R (mass (lp t) * lik t * h t)%R).
  { intros t Ht. refine (averages_ext L0 H0 _ _ _ _ (averages_const L0 H0 (mass (lp t) * lik t * h t)%R)). intros d Hd. destruct (Hz d t Hd Ht) as (Fi & L1 & L2 & L3 & L4 & Et & Ef & Er & En). cbn [fst snd] in *.
    destruct (old d t) as [f x]. cbn [snd] in Fi. destruct x as [l| | |]; try contradiction. rewrite <- Er, <- En in Hlik.
    destruct (C105_increase_weight T F Y K D E B L c n (g (t, (f, Fin l))) data (s (t, (f, Fin l))) b t f l (lik t) HL HE L1 L2 L3 L4 Hn Et Ef (Hlik t Ht)) as [_ ->].
    unfold posterior. cbn [fst snd mass]. field. pose proof (exp_pos l). lra. }
  apply Hdis; cbn [fst]; [intros t Ht; apply (A t Ht)|]. refine (integral_ext _ HM _ _ _ _ Hm). intros t Ht. symmetry. apply (A t Ht).
Qed.
Print Assumptions C105_increase.

(** Two parameter particles; the filter's estimate of the likelihood [exp theta] of an observation is half or one and a half
    times the truth at the first observation, exact afterwards. *)
Definition noisy (d : R) : env nat nat unit unit :=
  Env nat nat unit unit (-1000)%R 2
    (fun r np b built now => 0)
    (fun r np b built now y f => (S f, Fin (INR now + match f with 0 => ln d | _ => 0%R end)))
    (fun r w => [1; 1]) (fun r rows w idx => map (fun i => S (nth i rows 0)) idx) (fun r => [true; false])
    (fun rows w fs => tt) (fun k rows => map (fun _ => Fin 0) rows) (fun k k' m => tt) (fun r k => [7; 8]) (fun r => [1 / 2; 1 / 2]%R) (fun t => Fin 0) (fun a b => 0%R).
Lemma noisy_ok d : env_ok (noisy d) /\ e_B (noisy d) = 2 /\ tame (noisy d).
Proof.
  split; [|split; [reflexivity|intros r np b t t' y f; exact I]].
  unfold env_ok. cbn. split; [lia|]. split; [intros; split; [reflexivity|repeat constructor]|]. split; [intros r rows w idx _ L; now rewrite map_length|].
  split; [reflexivity|]. split; [reflexivity|]. split; [intros k rows; apply map_length|reflexivity].
Qed.
Definition doubt : law R := finite [(1 / 2, 1 / 2); (3 / 2, 1 / 2)]%R.
Definition prior_rows : law (list nat) := let p := (/ 4)%R in finite [([0; 0], p); ([0; 1], p); ([1; 0], p); ([1; 1], p)].
Definition guessed (d : R) (t : nat) : nat * xf := (1, Fin (INR t + ln d)).
Definition one_of (z : nat * (nat * xf)) : world := World [fst z; 0] [fst z; 0] 100 9 1.
Definition held (z : nat * (nat * xf)) : sstate := St [Fin 0; Fin 0] [snd z; (1, Fin 0)] [] (Some [tt]) 1.
Lemma doubt_ok : law_ok doubt. Proof. apply finite_ok. cbn. lra. Qed.
Lemma doubt_means (f : R -> R) (c : R) : (forall d, (0 < d)%R -> f d = (c * d)%R) -> averages doubt f c.
Proof. intros H. split; [exact I|]. cbn [doubt finite mean map fold_right fst snd]. rewrite !H by lra. cbn. lra. Qed.
Example C105_nonvacuous :
  (forall rows, supp prior_rows rows -> List.length rows = 2) /\ calm (SMC2 smc2_half) 2 2 /\
  averages (and_then prior_rows doubt)
    (fun q => / INR 2 * sum_below 2 (fun b => weighted_value (noisy (snd q)) (SMC2 smc2_half) [] 100%nat 0%nat (fst q) [tt; tt] b (fun _ => 1%R)))%R ((1 + exp 2) / 2)%R /\
  averages doubt (fun d => increased (noisy d) smc2_half 0 (World [1; 0] [1; 0] 100 9 1) [tt] (St [Fin 3; Fin 4] [(1, Fin 5); (1, Fin 0)] [] (Some [tt]) 1) 0) (exp 1 / exp 5)%R /\
  integral (summing [((0, guessed (1 / 2) 0), (/ 2)%R); ((0, guessed (3 / 2) 0), (/ 2)%R); ((1, guessed (1 / 2) 1), (/ 2)%R); ((1, guessed (3 / 2) 1), (/ 2)%R)])
    (fun z => posterior (fun _ => Fin 0) snd z *
      mean doubt (fun d => increased (noisy d) smc2_half 0%nat (one_of z) [tt] (held z) 0%nat) * INR (fst z + 1))%R
    (1 + exp 1 * 2)%R.
Proof.
  assert (Len : forall rows, supp prior_rows rows -> List.length rows = 2).
  { intros rows (p & H). cbn in H. destruct H as [H|[H|[H|[H|[]]]]]; injection H as <- _; reflexivity. }
  assert (Ca : calm (SMC2 smc2_half) 2 2) by (intros i; cbn; lra).
  assert (A1 : forall rnd np b t, averages doubt (fun d => mass (snd (alone (noisy d) rnd np b t [tt]))) (exp (INR t))).
  { intros rnd np b t. apply doubt_means. intros d Hd. cbn [alone alone_on noisy e_step e_init fst snd xadd mass]. rewrite !exp_plus, exp_0, exp_ln by exact Hd. ring. }
  assert (A2 : forall rnd np b t, averages doubt (fun d => mass (snd (alone (noisy d) rnd np b t [tt; tt]))) (exp (2 * INR t))).
  { intros rnd np b t. apply doubt_means. intros d Hd. cbn [alone alone_on noisy e_step e_init fst snd xadd mass]. replace (2 * INR t)%R with (INR t + INR t)%R by ring. rewrite !exp_plus, exp_0, exp_ln by exact Hd. ring. }
  split; [exact Len|]. split; [exact Ca|]. split; [|split].
  - apply (C105_evidence_partial nat nat unit unit R noisy 2 prior_rows doubt (SMC2 smc2_half) [] 100 0 [tt; tt] (fun _ t => exp (2 * INR t)) ((1 + exp 2) / 2)%R).
    + apply finite_ok. cbn. lra.
    + exact doubt_ok.
    + intros d _. apply noisy_ok.
    + exact Len.
    + lia.
    + exact Ca.
    + intros b rows t _ _ _. apply A2.
    + assert (E0 : exp (2 * INR 0) = 1%R) by (rewrite <- exp_0; f_equal; cbn; ring). assert (E1 : exp (2 * INR 1) = exp 2) by (f_equal; cbn; ring).
      intros [|[|b]] Hb; [| |lia]; (split; [exact I|]); cbn [prior_rows finite mean map fold_right fst snd at_slot nth_error]; unfold at_slot; cbn [nth_error]; rewrite E0, E1; cbn; field.
  - apply (C105_increase_weight nat nat unit unit R noisy 2 doubt smc2_half 0 (World [1; 0] [1; 0] 100 9 1) [tt] (St [Fin 3; Fin 4] [(1, Fin 5); (1, Fin 0)] [] (Some [tt]) 1) 0 1 1 5%R (exp 1));
      try reflexivity; [exact doubt_ok|intros d _; apply noisy_ok|cbn; lia|]. exact (A1 9 200 0 1).
  - apply (C105_increase nat nat unit unit R R noisy 2 doubt doubt _ (summing [(0, 1%R); (1, 1%R)]) guessed (fun _ => Fin 0) smc2_half 0
      one_of [tt] held 0 100 9 (fun t => INR (t + 1)) (fun t => exp (INR t)) (1 + exp 1 * 2)%R).
    + exact doubt_ok.
    + exact doubt_ok.
    + apply summing_ok.
    + intros d _. apply noisy_ok.
    + cbn. lia.
    + intros d t _ _. cbn. repeat split.
    + intros k m _ Hk. cbn [integral summing doubt finite mean map fold_right fst snd] in *. lra.
    + intros t _. apply A1.
    + cbn [integral summing map fold_right fst snd mass]. rewrite exp_0. change (INR 0) with 0%R. change (INR 1) with 1%R. change (INR (0 + 1)) with 1%R. replace (INR (1 + 1)) with 2%R by (cbn; lra). rewrite exp_0. ring.
Qed.
