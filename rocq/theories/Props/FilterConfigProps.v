(** Properties C28 and C29 (pyfilter/filters/particle/base.py: copy, increase_particles). *)
From Coq Require Import Reals List Bool ZArith String Lia Lra.
From Verif.Model Require Import Base Xf Tensor Weights Container Particle FilterConfig.
From Verif.Spec Require Import WeightsSpec ParticleSpec FilterConfigSpec.
From Verif.Proofs Require Import WeightsProofs ParticleProofs.
Import ListNotations.
Local Open Scope nat_scope.

(** * Every filter that configuration calls can produce is legal *)
Section Legal.
  Context {Ctx M Rs F : Type}.
  Variable aff lin : M -> bool.
  Implicit Types f g : pfilter Ctx M Rs F.

  Lemma mk_proposal_steps c (pw : option (pwf F)) (p : proposal M F) : mk_proposal c pw = Ok p ->
    match pr_class p with CLinearized s | CGaussianLinearized s => (0 < l_steps s)%Z | _ => True end.
  Proof.
    destruct c; cbn; intros H; try (injection H as <-; exact I);
      (destruct (0 <? l_steps s)%Z eqn:E; [injection H as <-; cbn; now apply Z.ltb_lt|discriminate]).
  Qed.

  Theorem C28_configurations_are_legal :
    (forall cls m n rs (p : option (proposal M F)) thr st mo nan im f,
       match p with Some p => exists c pw, mk_proposal c pw = Ok p | None => True end ->
       mk_filter (Ctx := Ctx) (Rs := Rs) cls m n rs p thr st mo nan im = Ok f -> legal f) /\
    (forall f b g, legal f -> set_batch_shape f b = Ok g -> legal g) /\
    (forall f k, legal f -> legal (increase_particles f k)) /\
    (forall f ctx g, legal f -> initialize_model aff lin f ctx = Ok g -> legal g).
  Proof.
    split; [|split; [|split]].
    - intros cls m n rs p thr st mo nan im f Hp E. unfold mk_filter in E.
      destruct m; cbn [bind] in E; try discriminate;
        (destruct (String.eqb nan "skip") eqn:E1; destruct (String.eqb nan "impute") eqn:E2; cbn [orb] in E; try discriminate;
         injection E as <-; unfold legal; cbn;
         (split; [first [left; now apply String.eqb_eq | right; now apply String.eqb_eq]|]);
         (split; [lia|]); (destruct p as [p|]; [destruct Hp as (c & pw & Hp); exact (mk_proposal_steps _ _ _ Hp)|now destruct cls])).
    - intros f b g (A & _ & C) E. unfold set_batch_shape in E. destruct (1 <? List.length b)%nat eqn:Eb; [discriminate|].
      injection E as <-. apply Nat.ltb_ge in Eb. now split.
    - intros f k H. exact H.
    - intros f ctx g (A & B & C) E. unfold initialize_model in E.
      destruct (set_model aff lin (f_proposal f) (f_builder f ctx)) as [p|] eqn:Ep; [|discriminate].
      injection E as <-. split; [exact A|]. split; [exact B|]. cbn [f_proposal].
      unfold set_model in Ep.
      assert (Ec : pr_class p = pr_class (f_proposal f)).
      { destruct (pr_class (f_proposal f)) eqn:Ec; cbn in Ep;
          repeat match goal with H : (if ?b then _ else _) = _ |- _ => destruct b; [|discriminate] end;
          injection Ep as <-; reflexivity. }
      now rewrite Ec.
  Qed.
End Legal.
Print Assumptions C28_configurations_are_legal.

(** * C28 *)

Lemma copy_once : forall Ctx M Rs F (f : pfilter Ctx M Rs F), legal f ->
  exists g, copy_filter f = Ok g /\ same_setup f g /\ f_threshold g = (f_threshold f * IZR (f_particles f))%R /\
    legal g /\ f_model g = None.
Proof.
  intros Ctx M Rs F f (Hn & Hb & Hp). unfold copy_filter.
  assert (E : exists p, copy_proposal (f_proposal f) = Ok p /\
            match pr_class p with CLinearized s | CGaussianLinearized s => (0 < l_steps s)%Z | _ => True end).
  { unfold copy_proposal, mk_proposal. destruct (pr_class (f_proposal f)); try (eexists; split; [reflexivity|exact I]);
      cbn [l_steps]; apply Z.ltb_lt in Hp; rewrite Hp; eexists; (split; [reflexivity|]); cbn; now apply Z.ltb_lt. }
  destruct E as (p & Ep & Hp'). rewrite Ep. cbn [bind mk_filter].
  assert (En : (String.eqb (f_nan f) "skip" || String.eqb (f_nan f) "impute")%bool = true).
  { destruct Hn as [-> | ->]; reflexivity. }
  rewrite En. cbn [bind]. unfold set_batch_shape.
  apply Nat.ltb_ge in Hb. rewrite Hb. eexists. split; [reflexivity|]. split; [constructor; reflexivity|].
  split; [reflexivity|]. split; [|reflexivity]. split; [exact Hn|]. split; [now apply Nat.ltb_ge|]. exact Hp'.
Qed.

(** Every setting except the threshold survives any number of copies; the threshold is multiplied by the number of
    particles each time. *)
Theorem C28_copy_partial : forall Ctx M Rs F (f : pfilter Ctx M Rs F) k, legal f ->
  exists g, iterated copy_filter k f g /\ same_setup f g /\
    f_threshold g = (f_threshold f * IZR (f_particles f) ^ k)%R.
Proof.
  intros Ctx M Rs F f k Hl.
  assert (H : exists g, iterated copy_filter k f g /\ same_setup f g /\
    f_threshold g = (f_threshold f * IZR (f_particles f) ^ k)%R /\ legal g).
  { induction k as [|k (g & I & S & T & L)].
    - exists f. split; [constructor|]. split; [constructor; reflexivity|]. split; [cbn; lra|exact Hl].
    - destruct (copy_once _ _ _ _ g L) as (h & E & S' & T' & L' & _). exists h.
      split; [econstructor; eassumption|]. split.
      { destruct S, S'. constructor; intros; congruence. }
      split; [|exact L']. rewrite T', T. destruct S as [_ -> _ _ _ _ _ _ _]. cbn [pow]. ring. }
  destruct H as (g & A & B & C & _). exists g. now split.
Qed.
Print Assumptions C28_copy_partial.

(** The threshold survives a copy exactly for one particle (or a threshold of zero). *)
Theorem C28_threshold_iff : forall Ctx M Rs F (f g : pfilter Ctx M Rs F), legal f -> copy_filter f = Ok g ->
  (f_threshold g = f_threshold f <-> f_threshold f = 0%R \/ f_particles f = 1%Z).
Proof.
  intros Ctx M Rs F f g Hl E. destruct (copy_once _ _ _ _ f Hl) as (g' & E' & _ & T & _).
  rewrite E in E'. injection E' as <-. rewrite T. split.
  - intros H. destruct (Req_dec (f_threshold f) 0) as [Z0|Z0]; [now left|]. right.
    apply eq_IZR. apply Rmult_eq_reg_l with (f_threshold f); [lra|exact Z0].
  - intros [-> | ->]; lra.
Qed.
Print Assumptions C28_threshold_iff.

(** Concretely: two evenly weighted particles, relative threshold 9/10.  The filter does not resample (whatever the
    resampling function is); its copy calls the resampling function. *)
Definition cfg (n : Z) : res (pfilter unit unit nat unit) :=
  mk_filter FSISR (AModel tt) n 0%nat None (9/10)%R (MLBool false) (MLBool true) "skip" false.
Definition even_state : corr nat :=
  Corr (TS 0 (Mat 2 1 (fun i _ => i))) (Mat 2 1 (fun _ _ => Fin 0)) (fun _ => Fin 0) (arange 2 1).
Definition raising (e : exn) : @oracle nat unit :=
  Oracle (fun _ _ _ => Raise e) (fun _ x => x) (fun _ _ x w _ => (x, w)) (fun _ x => Mat 2 1 (fun _ _ => Fin 0)).

Lemma even_ess : forall thr, below 0 thr (Mat 2 1 (fun i j => nth i (norm_col 0 (col (c_w even_state) j)) NaN)) 0
                         = (if Rlt_dec 2 thr then true else false).
Proof.
  intros thr.
  assert (E : norm_col 0 (col (c_w even_state) 0) = map Fin [/2; /2]%R).
  { unfold norm_col. rewrite imp_norm.
    2:{ cbn. discriminate. }
    2:{ intros x [<-|[<-|[]]]; exact I. }
    unfold imp, even_state, col. cbn [c_w m_rows m_get seq map]. unfold mass, Rsum; cbn -[Rdiv]. rewrite exp_0.
    repeat f_equal; field. }
  assert (Hc : col (Mat 2 1 (fun i j => nth i (norm_col 0 (col (c_w even_state) j)) NaN)) 0 = map Fin [/2; /2]%R).
  { unfold col at 1. cbn [m_rows m_get seq map]. now rewrite E. }
  unfold below. rewrite Hc, ess_col_spec.
  2:{ split; [intros x [<-|[<-|[]]]; lra|unfold Rsum; cbn; lra]. }
  unfold ess_of. cbn. replace (/ (/ 2 * / 2 + (/ 2 * / 2 + 0)))%R with 2%R by field. reflexivity.
Qed.

Theorem C28_copy_refuted :
  exists f g, cfg 2 = Ok f /\ legal f /\ copy_filter f = Ok g /\
    f_threshold f = (9/5)%R /\ f_threshold g = (18/5)%R /\
    forall e, (exists p, sisr_predict 0 (raising e) (f_threshold f) 0 even_state = Ok p) /\
              sisr_predict 0 (raising e) (f_threshold g) 0 even_state = Raise e.
Proof.
  unfold cfg, mk_filter. cbn [bind String.eqb Ascii.eqb Bool.eqb orb].
  eexists. eexists. split; [reflexivity|]. split.
  { split; [now left|]. split; [cbn; lia|exact I]. }
  split; [reflexivity|]. cbn [f_threshold f_particles]. split; [lra|]. split; [lra|].
  intros e. unfold sisr_predict, normalize_mat. cbn [c_w even_state m_rows m_cols Nat.eqb bind seq existsb].
  change (Mat 2 1 (fun i j => nth i (norm_col 0 (col (Mat 2 1 (fun _ _ => Fin 0)) j)) NaN))
    with (Mat 2 1 (fun i j => nth i (norm_col 0 (col (c_w even_state) j)) NaN)).
  rewrite !even_ess. split.
  - destruct (Rlt_dec 2 (9 / 10 * 2)) as [H|H]; [exfalso; lra|]. eexists. reflexivity.
  - destruct (Rlt_dec 2 (9 / 10 * 2 * 2)) as [H|H]; [|exfalso; lra]. reflexivity.
Qed.
Print Assumptions C28_copy_refuted.

(** A copy has no model until [initialize_model] is called, even if the original was given one. *)
Theorem C28_copy_needs_model : forall Ctx M Rs F (aff lin : M -> bool) (f g : pfilter Ctx M Rs F),
  legal f -> copy_filter f = Ok g -> initialize_guard aff lin g = Raise AssertionError.
Proof.
  intros Ctx M Rs F aff lin f g Hl E. destruct (copy_once _ _ _ _ f Hl) as (g' & E' & _ & _ & _ & H).
  rewrite E in E'. injection E' as <-. unfold initialize_guard. now rewrite H.
Qed.
Print Assumptions C28_copy_needs_model.

(** Which proposal settings a copy keeps: all of them, except a user's look-ahead function and GaussianLinearized's
    choice of differentiation. *)
Theorem C28_proposal_copy : forall M F (aff lin : M -> bool) (p q : proposal M F) (m : M) q',
  copy_proposal p = Ok q -> set_model aff lin q m = Ok q' ->
  pr_model q' = Some m /\
  pr_pwf q' = Some (if aff m then AffineMean else Missing) /\
  (pr_class q' = pr_class p \/
   exists s, pr_class p = CGaussianLinearized s /\ l_functorch s = false /\
             pr_class q' = CGaussianLinearized (Lin (l_steps s) (l_alpha s) (l_second s) true)).
Proof.
  intros M F aff lin p q m q' Ec Es.
  assert (Hq : pr_pwf q = None /\ (pr_class q = pr_class p \/
     exists s, pr_class p = CGaussianLinearized s /\ l_functorch s = false /\
             pr_class q = CGaussianLinearized (Lin (l_steps s) (l_alpha s) (l_second s) true))).
  { unfold copy_proposal in Ec. destruct (pr_class p) eqn:Ep; cbn in Ec;
      try (injection Ec as <-; split; [reflexivity|left; reflexivity]).
    - destruct (0 <? l_steps s)%Z; [injection Ec as <-|discriminate]. split; [reflexivity|now left].
    - destruct (0 <? l_steps s)%Z; [injection Ec as <-|discriminate]. split; [reflexivity|].
      cbn [pr_class]. destruct s as [a b c d], d; [left; reflexivity|].
      right. eexists. split; [reflexivity|]. split; reflexivity. }
  destruct Hq as (Hpw & Hcl). unfold set_model in Es.
  match type of Es with (if ?b then _ else _) = _ => destruct b; [|discriminate] end.
  injection Es as <-. cbn [pr_model pr_pwf pr_class]. rewrite Hpw. now split.
Qed.
Print Assumptions C28_proposal_copy.

Example C28_nonvacuous : exists f g : pfilter unit unit nat unit,
  cfg 5 = Ok f /\ legal f /\ copy_filter f = Ok g /\ same_setup f g /\ f_threshold g = (45/2)%R.
Proof.
  unfold cfg, mk_filter. cbn [bind String.eqb Ascii.eqb Bool.eqb orb].
  eexists. eexists. split; [reflexivity|]. split.
  { split; [now left|]. split; [cbn; lia|exact I]. }
  split; [reflexivity|]. split; [constructor; reflexivity|]. cbn. lra.
Qed.

(** * C29 *)

Theorem C29_increase_keeps_fraction : forall Ctx M Rs F (f : pfilter Ctx M Rs F) (factors : list Z),
  f_particles f <> 0%Z -> Forall (fun k => k <> 0%Z) factors ->
  let g := fold_left increase_particles factors f in
  f_particles g = (f_particles f * product factors)%Z /\
  relative_threshold g = relative_threshold f /\
  (particles g = (f_particles f * product factors)%Z :: map Z.of_nat (f_batch f)) /\
  f_resampler g = f_resampler f /\ f_batch g = f_batch f /\ f_proposal g = f_proposal f /\
  f_record_states g = f_record_states f /\ f_record_moments g = f_record_moments f /\ f_model g = f_model f.
Proof.
  intros Ctx M Rs F f factors Hf Hk. revert f Hf.
  induction Hk as [|k l Hk Hl IH]; intros f Hf; cbn zeta; cbn [fold_left product fold_right].
  - unfold particles. replace (f_particles f * 1)%Z with (f_particles f) by lia. do 8 (split; [reflexivity|]). reflexivity.
  - specialize (IH (increase_particles f k)). cbn [increase_particles f_particles] in IH.
    specialize (IH ltac:(lia)). cbn zeta in IH. destruct IH as (A & B & C & D).
    assert (E : (k * f_particles f * product l)%Z = (f_particles f * (k * product l))%Z) by lia.
    split; [rewrite A; exact E|]. split.
    + rewrite B. unfold relative_threshold, increase_particles. cbn [f_threshold f_particles].
      rewrite mult_IZR. field. split; now apply not_0_IZR.
    + split; [|exact D]. rewrite C. f_equal. exact E.
Qed.
Print Assumptions C29_increase_keeps_fraction.

(** For a filter from the constructor the fraction is the [ess_threshold] argument. *)
Theorem C29_from_constructor : forall Ctx M Rs F cls m n rs p thr st mo nan im (f : pfilter Ctx M Rs F) factors,
  (0 < n)%Z -> Forall (fun k => (0 < k)%Z) factors ->
  mk_filter cls m n rs p thr st mo nan im = Ok f ->
  let g := fold_left increase_particles factors f in
  f_particles g = (n * product factors)%Z /\ f_threshold g = (thr * IZR (f_particles g))%R.
Proof.
  intros Ctx M Rs F cls m n rs p thr st mo nan im f factors Hn Hk E g.
  assert (H : f_particles f = n /\ f_threshold f = (thr * IZR n)%R).
  { unfold mk_filter in E. destruct m; cbn [bind] in E; try discriminate;
      (match type of E with (if ?b then _ else _) = _ => destruct b; [|discriminate] end; injection E as <-; now split). }
  destruct H as [H1 H2].
  destruct (C29_increase_keeps_fraction _ _ _ _ f factors) as (A & B & _).
  { lia. }
  { eapply Forall_impl; [|exact Hk]. cbn. intros; lia. }
  fold g in A, B. split; [rewrite A, H1; reflexivity|].
  assert (Hp : (0 < product factors)%Z).
  { clear -Hk. induction Hk; cbn; [lia|]. fold (product l). nia. }
  assert (Hg : IZR (f_particles g) <> 0%R) by (apply not_0_IZR; rewrite A, H1; nia).
  unfold relative_threshold in B. rewrite H2, H1 in B.
  apply Rmult_eq_reg_r with (/ IZR (f_particles g))%R; [|now apply Rinv_neq_0_compat].
  unfold Rdiv in B. rewrite B. field. split; [exact Hg|apply not_0_IZR; lia].
Qed.
Print Assumptions C29_from_constructor.

Example C29_nonvacuous : exists f : pfilter unit unit nat unit, cfg 10 = Ok f /\ f_particles f <> 0%Z /\
  Forall (fun k => k <> 0%Z) [2; 3]%Z /\
  f_particles (fold_left increase_particles [2; 3]%Z f) = 60%Z /\
  f_threshold (fold_left increase_particles [2; 3]%Z f) = 54%R.
Proof.
  unfold cfg, mk_filter. cbn [bind String.eqb Ascii.eqb Bool.eqb orb].
  eexists. split; [reflexivity|]. split; [cbn; lia|]. split; [repeat constructor; lia|].
  split; [reflexivity|]. cbn. lra.
Qed.

(** * C69 *)

(** Building the model succeeds exactly for the models the proposal supports; filter and proposal are then bound to the
    same model.  Otherwise the call raises ValueError. *)
Theorem C69_supported_models : forall Ctx M Rs F (aff lin : M -> bool) (f : pfilter Ctx M Rs F) ctx,
  let m := f_builder f ctx in let c := pr_class (f_proposal f) in
  ((forall q, demands c q -> offers aff lin m q) ->
     exists g, initialize_model aff lin f ctx = Ok g /\ f_model g = Some m /\ pr_model (f_proposal g) = Some m /\
       pr_class (f_proposal g) = c /\ f_particles g = f_particles f /\ f_threshold g = f_threshold f /\
       f_batch g = f_batch f /\ f_resampler g = f_resampler f) /\
  (forall q, demands c q -> ~ offers aff lin m q -> initialize_model aff lin f ctx = Raise ValueError).
Proof.
  intros Ctx M Rs F aff lin f ctx m c. unfold initialize_model, set_model. fold m. fold c. split.
  - intros H. pose proof (H AffineHidden) as H1. pose proof (H LinearObservations) as H2. cbn [offers] in H1, H2.
    destruct c; cbn [demands] in H1, H2; try rewrite (H1 I); try rewrite (H2 I); cbn [andb bind];
      (eexists; split; [reflexivity|]; do 6 (split; [reflexivity|]); reflexivity).
  - intros q Hd Ho. destruct c, q; cbn [demands] in Hd; try contradiction; cbn [offers] in Ho;
      apply Bool.not_true_is_false in Ho; rewrite Ho, ?andb_false_r; reflexivity.
Qed.
Print Assumptions C69_supported_models.

(** * C70 *)

(** A new proposal, bound to a model for the first time, uses the user's look-ahead function or the default for it. *)
Theorem C70_first_model_partial : forall M F (aff lin : M -> bool) c (user : option (pwf F)) (p q : proposal M F) m,
  (forall s, c <> CLinearized s /\ c <> CGaussianLinearized s) ->
  mk_proposal c user = Ok p -> set_model aff lin p m = Ok q ->
  exists w, pr_pwf q = Some w /\ look_ahead_for aff user m w.
Proof.
  intros M F aff lin c user p q m Hc Hm Hs.
  assert (E : p = Prop_ c None user).
  { destruct c; cbn [mk_proposal] in Hm; try (injection Hm as <-; reflexivity).
    - exfalso. now apply (proj1 (Hc s)). - exfalso. now apply (proj2 (Hc s)). }
  subst p. unfold set_model in Hs. cbn [pr_class pr_pwf] in Hs.
  match type of Hs with (if ?b then _ else _) = _ => destruct b; [|discriminate] end. injection Hs as <-.
  eexists. split; [reflexivity|]. unfold look_ahead_for, get_pre_weight_func. destruct user; [reflexivity|].
  destruct (aff m); split; congruence.
Qed.
Print Assumptions C70_first_model_partial.

(** Bound to a second model it keeps the function chosen for the first one, for every pair of models. *)
Theorem C70_second_model_refuted : forall M F (aff lin : M -> bool) c (p q r : proposal M F) m m',
  mk_proposal c None = Ok p -> set_model aff lin p m = Ok q -> set_model aff lin q m' = Ok r ->
  pr_pwf r = pr_pwf q /\ (aff m <> aff m' -> forall w, pr_pwf r = Some w -> ~ look_ahead_for aff None m' w).
Proof.
  intros M F aff lin c p q r m m' Hm Hs Hr.
  assert (E : p = Prop_ c None None).
  { destruct c; cbn [mk_proposal] in Hm; try (injection Hm as <-; reflexivity);
      (match type of Hm with (if ?b then _ else _) = _ => destruct b; [|discriminate] end; injection Hm as <-; reflexivity). }
  subst p. unfold set_model in Hs. cbn [pr_class pr_pwf] in Hs.
  match type of Hs with (if ?b then _ else _) = _ => destruct b; [|discriminate] end. injection Hs as <-.
  unfold set_model in Hr. cbn [pr_class pr_pwf] in Hr.
  match type of Hr with (if ?b then _ else _) = _ => destruct b; [|discriminate] end. injection Hr as <-.
  cbn [pr_pwf]. split; [reflexivity|]. intros Hd w Hw. injection Hw as <-.
  unfold look_ahead_for, get_pre_weight_func. destruct (aff m), (aff m'); try congruence; intros [A B].
  - now specialize (B eq_refl). - now specialize (A eq_refl).
Qed.
Print Assumptions C70_second_model_refuted.

(** The linear Gaussian proposal accepts one of two models, the bootstrap proposal both, one after the other. *)
Example C69_C70_nonvacuous :
  let aff := fun b : bool => b in
  (exists q, set_model aff aff (Prop_ CLinearGaussian None None : proposal bool unit) true = Ok q) /\
  set_model aff aff (Prop_ CLinearGaussian None None : proposal bool unit) false = Raise ValueError /\
  (exists p q r, mk_proposal CBootstrap None = Ok (p : proposal bool unit) /\ set_model aff aff p true = Ok q /\
     set_model aff aff q false = Ok r /\ aff true <> aff false).
Proof. split; [eexists; reflexivity|]. split; [reflexivity|]. do 3 eexists. repeat (split; [reflexivity|]). discriminate. Qed.
