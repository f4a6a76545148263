(** Property C104 (pyfilter/inference/utils.py: construct_mvn; pyfilter/inference/batch/mcmc/proposals/symmetric_mh.py: build). *)
From Coq Require Import Reals List Bool Arith Lia Lra.
From Verif.Model Require Import Base Mvn.
From Verif.Spec Require Import WeightsSpec UnbiasedSpec ConvergeSpec MvnSpec.
From Verif.Proofs Require Import UnbiasedProofs BackwardProofs CompleteProofs MvnProofs.
Import ListNotations.
Local Open Scope nat_scope.

Lemma factor_scaled p l s : (0 < s)%R -> cholesky_factor p l -> cholesky_factor p (fun i j => s * l i j)%R.
Proof. intros Hs [H1 H2]. split; [intros; apply Rmult_lt_0_compat; auto|]. intros i j Hi Hj Hij. rewrite H2 by assumption. ring. Qed.
Lemma constant_flat B p x w i : i < p -> constant B x w i -> flat B p x w (fun j => if Nat.eq_dec j i then 1%R else 0%R).
Proof.
  intros Hi C k k' Hk Hk' Wk Wk'. assert (G : forall k, sum_below p (fun j => (if Nat.eq_dec j i then 1 else 0) * x k j)%R = x k i).
  { intros q. rewrite (sb_ext p _ (fun j => x q j * (if Nat.eq_dec j i then 1 else 0))%R) by (intros; ring). now apply sb_single. }
  rewrite !G. now apply C.
Qed.

(** No flat direction: the kernel has the weighted mean, and the weighted covariance times [scale] squared. *)
Theorem C104_kernel_partial B p x w scale : probabilities B w -> (0 < scale)%R -> (forall v, nonzero p v -> ~ flat B p x w v) ->
  exists m l, construct_mvn B p x w scale = Ok (m, l) /\ cholesky_factor p l /\ (forall i, i < p -> m i = mean_of B x w i) /\
    (forall i j, i < p -> j < p -> sum_below p (fun k => l i k * l j k)%R = (scale * scale * covariance_of B x w i j)%R).
Proof.
  intros Hw Hs H. destruct (proj2 (cov_cholesky B p x w Hw) H) as [l E]. destruct (cholesky_product p _ l (cov_symmetric B x w p) E) as [F P].
  exists (mvn_mean B x w), (fun i j => scale * l i j)%R. pose proof (factor_scaled p l scale Hs F) as F'. repeat split.
  - unfold construct_mvn, mvn_chol. rewrite E. now rewrite (proj2 (lower_cholesky_spec p _) F').
  - exact (proj1 F').
  - exact (proj2 F').
  - intros i j Hi Hj. rewrite <- cov_spec, <- P by assumption. rewrite <- sb_scal. apply sb_ext. intros; ring.
Qed.
Print Assumptions C104_kernel_partial.

(** The proposal of SMC2: 1.1 times the standard deviation. *)
Theorem C104_symmetric_partial B p x w : probabilities B w -> (forall v, nonzero p v -> ~ flat B p x w v) ->
  exists m l, symmetric_kernel B p x w = Ok (m, l) /\ (forall i, i < p -> m i = mean_of B x w i) /\
    (forall i j, i < p -> j < p -> sum_below p (fun k => l i k * l j k)%R = (121 / 100 * covariance_of B x w i j)%R).
Proof.
  intros Hw H. destruct (C104_kernel_partial B p x w (11 / 10) Hw ltac:(lra) H) as (m & l & E & _ & M & P). exists m, l. split; [exact E|]. split; [exact M|].
  intros i j Hi Hj. rewrite P by assumption. field.
Qed.
Print Assumptions C104_symmetric_partial.

(** Samples made from uncorrelated noise have that mean and that covariance. *)
Theorem C104_draws B p x w scale N k : probabilities B w -> (0 < scale)%R -> (forall v, nonzero p v -> ~ flat B p x w v) ->
  law_ok N -> white p N -> construct_mvn B p x w scale = Ok k ->
  (forall i, i < p -> averages N (fun z => mvn_draw p k z i) (mean_of B x w i)) /\
  (forall i j, i < p -> j < p -> averages N (fun z => (mvn_draw p k z i - mean_of B x w i) * (mvn_draw p k z j - mean_of B x w j))%R
    (scale * scale * covariance_of B x w i j)%R).
Proof.
  intros Hw Hs H HN [W1 W2] E. destruct (C104_kernel_partial B p x w scale Hw Hs H) as (m & l & E' & _ & M & P). rewrite E' in E. injection E as <-.
  unfold mvn_draw. cbn [fst snd]. split.
  - intros i Hi. rewrite <- M by exact Hi. pose proof (averages_sb p 1 0 Nat.lt_0_1 N HN (fun j z => l i j * z j)%R (fun j => l i j * 0)%R (fun j Hj => averages_scal N HN _ _ _ (W1 j Hj))) as A.
    rewrite sb_zero in A by (intros; ring). pose proof (averages_lin N HN 1 1 _ _ _ _ (averages_const N HN (m i)) A) as Q.
    replace (1 * m i + 1 * 0)%R with (m i) in Q by ring. refine (averages_ext N HN _ _ _ _ Q). intros z _. change (total p) with (sum_below p). ring.
  - intros i j Hi Hj. rewrite <- P by assumption.
    pose proof (averages_sb p 1 0 Nat.lt_0_1 N HN (fun k z => sum_below p (fun k' => l i k * l j k' * (z k * z k')))%R (fun k => sum_below p (fun k' => l i k * l j k' * (if Nat.eq_dec k k' then 1 else 0)))%R) as A.
    assert (A' := A (fun k Hk => averages_sb p 1 0 Nat.lt_0_1 N HN (fun k' z => l i k * l j k' * (z k * z k'))%R (fun k' => l i k * l j k' * (if Nat.eq_dec k k' then 1 else 0))%R (fun k' Hk' => averages_scal N HN _ _ _ (W2 k k' Hk Hk')))). clear A.
    rewrite (sb_ext p _ (fun k => l i k * l j k)%R) in A'.
    + refine (averages_ext N HN _ _ _ _ A'). intros z _. change (total p) with (sum_below p). rewrite <- !M by assumption.
      replace (m i + sum_below p (fun k => l i k * z k) - m i)%R with (sum_below p (fun k => l i k * z k)%R) by ring. replace (m j + sum_below p (fun k => l j k * z k) - m j)%R with (sum_below p (fun k => l j k * z k)%R) by ring.
      rewrite sb_product. apply sb_ext. intros k _. apply sb_ext. intros; ring.
    + intros k Hk. rewrite (sb_ext p _ (fun k' => l i k * l j k' * (if Nat.eq_dec k' k then 1 else 0))%R).
      * rewrite (sb_single p k (fun k' => l i k * l j k')%R) by exact Hk. reflexivity.
      * intros k' _. destruct (Nat.eq_dec k k'), (Nat.eq_dec k' k); try congruence; reflexivity.
Qed.
Print Assumptions C104_draws.

(** The kernel cannot be built iff a component is constant on the particles that have weight. *)
Theorem C104_raises_refuted B p x w scale : probabilities B w -> (0 < scale)%R ->
  (construct_mvn B p x w scale = Raise ValueError <-> exists i, i < p /\ constant B x w i).
Proof.
  intros Hw Hs. split.
  - intros E. destruct (existsb (fun i => if Req_EM_T (mvn_cov B x w i i) 0 then true else false) (seq 0 p)) eqn:X.
    + apply existsb_exists in X. destruct X as (i & Hi & Z). apply in_seq in Hi. exists i. split; [lia|]. destruct (Req_EM_T (mvn_cov B x w i i) 0); [|discriminate]. now apply (cov_diag B x w Hw i).
    + exfalso. unfold construct_mvn in E. match type of E with (if ?b then _ else _) = _ => assert (b = true) as Y; [|rewrite Y in E; discriminate] end.
      apply lower_cholesky_spec. apply factor_scaled; [exact Hs|]. unfold mvn_chol. destruct (cholesky p (mvn_cov B x w)) as [l|] eqn:EC.
      * exact (proj1 (cholesky_product p _ l (cov_symmetric B x w p) EC)).
      * split; [|intros i j _ _ Hij; destruct (Nat.eqb_spec i j); [lia|reflexivity]]. intros i Hi. rewrite Nat.eqb_refl. apply sqrt_lt_R0. destruct (cov_diag B x w Hw i) as [N _].
        destruct (Rle_lt_or_eq_dec _ _ N) as [L|L]; [exact L|]. exfalso.
        assert (existsb (fun i => if Req_EM_T (mvn_cov B x w i i) 0 then true else false) (seq 0 p) = true); [|congruence]. apply existsb_exists. exists i. split; [apply in_seq; lia|]. destruct (Req_EM_T (mvn_cov B x w i i) 0) as [|Ne]; [reflexivity|destruct Ne; now symmetry].
  - intros (i & Hi & C). unfold construct_mvn. match goal with |- (if ?b then _ else _) = _ => destruct b eqn:Y; [exfalso|reflexivity] end.
    apply lower_cholesky_spec in Y. destruct Y as [Y _]. specialize (Y i Hi). unfold mvn_chol in Y. destruct (cholesky p (mvn_cov B x w)) as [l|] eqn:EC.
    + apply (proj1 (cov_cholesky B p x w Hw) (ex_intro _ l EC) (fun j => if Nat.eq_dec j i then 1%R else 0%R)); [|now apply constant_flat].
      exists i. split; [exact Hi|]. destruct (Nat.eq_dec i i); [lra|congruence].
    + rewrite Nat.eqb_refl, (proj2 (proj2 (cov_diag B x w Hw i)) C), sqrt_0 in Y. lra.
Qed.
Print Assumptions C104_raises_refuted.

(** One particle has all the weight: always the case above. *)
Theorem C104_degenerate_refuted B p x w scale k : probabilities B w -> (0 < scale)%R -> 0 < p -> k < B -> w k = 1%R ->
  construct_mvn B p x w scale = Raise ValueError.
Proof.
  intros Hw Hs Hp Hk E. apply C104_raises_refuted; [exact Hw|exact Hs|]. exists 0. split; [exact Hp|].
  assert (G : forall q, q < B -> (0 < w q)%R -> q = k).
  { intros q Hq Wq. destruct (Nat.eq_dec q k) as [|Ne]; [assumption|]. exfalso. destruct Hw as [P S].
    assert (sum_below B (fun i => w i * (if Nat.eq_dec i k then 1 else 0))%R = w k) by (now apply sb_single).
    assert (D : sum_below B (fun i => w i + -1 * (w i * (if Nat.eq_dec i k then 1 else 0)))%R = 0%R) by (rewrite sb_add, sb_scal; change (sum_below B (fun i => w i)) with (sum_below B w); lra).
    assert (Z : (w q + -1 * (w q * (if Nat.eq_dec q k then 1 else 0)))%R = 0%R).
    { refine (sb_null B (fun i => w i + -1 * (w i * (if Nat.eq_dec i k then 1 else 0)))%R q _ D Hq). intros i Hi. cbv beta. specialize (P i Hi). destruct (Nat.eq_dec i k); lra. }
    destruct (Nat.eq_dec q k); [contradiction|lra]. }
  intros a b Ha Hb Wa Wb. now rewrite (G a Ha Wa), (G b Hb Wb).
Qed.
Print Assumptions C104_degenerate_refuted.

(** A flat direction, but no constant component: the correlations are dropped. *)
Theorem C104_fallback_refuted B p x w scale v : probabilities B w -> (0 < scale)%R -> nonzero p v -> flat B p x w v ->
  (forall i, i < p -> ~ constant B x w i) ->
  exists m l, construct_mvn B p x w scale = Ok (m, l) /\ (forall i, i < p -> m i = mean_of B x w i) /\
    (forall i j, i < p -> j < p -> l i j = if Nat.eq_dec i j then (scale * sqrt (covariance_of B x w i i))%R else 0%R) /\
    (forall i j, i < p -> j < p -> sum_below p (fun k => l i k * l j k)%R = if Nat.eq_dec i j then (scale * scale * covariance_of B x w i i)%R else 0%R).
Proof.
  intros Hw Hs Nz F NC. destruct (cholesky p (mvn_cov B x w)) as [l|] eqn:EC; [destruct (proj1 (cov_cholesky B p x w Hw) (ex_intro _ l EC) v Nz F)|].
  assert (L : forall i j, (scale * mvn_chol B p x w i j)%R = if Nat.eq_dec i j then (scale * sqrt (covariance_of B x w i i))%R else 0%R).
  { intros i j. unfold mvn_chol. rewrite EC. destruct (Nat.eqb_spec i j), (Nat.eq_dec i j); try contradiction; [now rewrite cov_spec|ring]. }
  exists (mvn_mean B x w), (fun i j => scale * mvn_chol B p x w i j)%R. repeat split.
  - destruct (construct_mvn B p x w scale) as [r|e] eqn:E.
    + unfold construct_mvn in E. match type of E with (if ?b then _ else _) = _ => destruct b end; [|discriminate]. now injection E as <-.
    + assert (E' : construct_mvn B p x w scale = Raise ValueError) by (unfold construct_mvn in *; match type of E with (if ?b then _ else _) = _ => destruct b end; [discriminate|reflexivity]).
      apply C104_raises_refuted in E'; [|exact Hw|exact Hs]. destruct E' as (i & Hi & C). destruct (NC i Hi C).
  - intros i j _ _. apply L.
  - intros i j Hi Hj. rewrite (sb_ext p _ (fun k => (scale * sqrt (covariance_of B x w i i)) * (if Nat.eq_dec j i then scale * sqrt (covariance_of B x w j j) else 0) * (if Nat.eq_dec k i then 1 else 0))%R).
    + rewrite (sb_single p i (fun _ => (scale * sqrt (covariance_of B x w i i)) * (if Nat.eq_dec j i then scale * sqrt (covariance_of B x w j j) else 0))%R) by exact Hi.
      destruct (Nat.eq_dec j i) as [->|N1], (Nat.eq_dec i _) as [N2|N2]; try congruence; [|ring].
      pose proof (proj1 (cov_diag B x w Hw i)) as Q. rewrite cov_spec in Q. pose proof (sqrt_sqrt _ Q). transitivity (scale * scale * (sqrt (covariance_of B x w i i) * sqrt (covariance_of B x w i i)))%R; [ring|now f_equal].
    + intros k _. rewrite !L. destruct (Nat.eq_dec i k) as [e|], (Nat.eq_dec k i); try congruence; [subst k; ring|ring].
Qed.
Print Assumptions C104_fallback_refuted.

(** No more particles with weight than components: always one of the two cases above. *)
Theorem C104_few_refuted B p x w scale : probabilities B w -> (0 < scale)%R -> few B w p ->
  construct_mvn B p x w scale = Raise ValueError \/
  exists m l, construct_mvn B p x w scale = Ok (m, l) /\ forall i j, i < p -> j < p -> i <> j -> l i j = 0%R.
Proof.
  intros Hw Hs Hf. destruct (few_flat B p x w Hw Hf) as (v & Nz & F). destruct (construct_mvn B p x w scale) as [[m l]|e] eqn:E.
  - right. destruct (C104_fallback_refuted B p x w scale v Hw Hs Nz F) as (m' & l' & E' & _ & L & _).
    + intros i Hi C. rewrite (proj2 (C104_raises_refuted B p x w scale Hw Hs)) in E; [discriminate|now exists i].
    + rewrite E in E'. injection E' as -> ->. exists m', l'. split; [reflexivity|]. intros i j Hi Hj Ne. rewrite L by assumption. destruct (Nat.eq_dec i j); [contradiction|reflexivity].
  - left. unfold construct_mvn in E. match type of E with (if ?b then _ else _) = _ => destruct b end; [discriminate|now injection E as <-].
Qed.
Print Assumptions C104_few_refuted.

(** Three particles at the corners of a triangle; two on the diagonal. *)
Definition corners : nat -> nat -> R := fun k i => if Nat.eq_dec k (S i) then 1%R else 0%R.
Definition diagonal : nat -> nat -> R := fun k _ => INR k.
Definition coins : law (nat -> R) :=
  finite [((fun i => 1%R), (1/4)%R); ((fun i => if Nat.eq_dec i 0 then 1 else -1)%R, (1/4)%R);
          ((fun i => if Nat.eq_dec i 0 then -1 else 1)%R, (1/4)%R); ((fun i => -1)%R, (1/4)%R)].
Lemma coins_ok : law_ok coins.
Proof.
  split.
  - intros f g H _. split; [exact I|]. cbn. rewrite !H; [reflexivity|..]; eexists; cbn; eauto.
  - intros c. split; [exact I|]. cbn. field.
  - intros a b f g _ _. split; [exact I|]. cbn. ring.
Qed.
Example C104_nonvacuous :
  (exists k, symmetric_kernel 3 2 corners (fun _ => / 3)%R = Ok k /\
    averages coins (fun z => mvn_draw 2 k z 1) (/ 3)%R /\
    averages coins (fun z => (mvn_draw 2%nat k z 0%nat - / 3) * (mvn_draw 2%nat k z 1%nat - / 3))%R (121 / 100 * (- / 9))%R) /\
  (exists k, symmetric_kernel 2 2 diagonal (fun _ => / 2)%R = Ok k /\ snd k 1 0 = 0%R /\ covariance_of 2 diagonal (fun _ => / 2)%R 1 0 = (/ 4)%R) /\
  symmetric_kernel 3 2 corners (fun k => if Nat.eq_dec k 1 then 1 else 0)%R = Raise ValueError.
Proof.
  split; [|split].
  - assert (Hw : probabilities 3 (fun _ => / 3)%R) by (split; [intros; lra|unfold sum_below; cbn; field]).
    assert (NF : forall v, nonzero 2 v -> ~ flat 3 2 corners (fun _ => / 3)%R v).
    { intros v (i & Hi & Nz) F. assert (F1 := F 1 0 ltac:(lia) ltac:(lia) ltac:(lra) ltac:(lra)). assert (F2 := F 2 0 ltac:(lia) ltac:(lia) ltac:(lra) ltac:(lra)).
      unfold sum_below, corners in F1, F2. cbn in F1, F2. destruct i as [|[|i]]; [apply Nz; lra|apply Nz; lra|lia]. }
    destruct (C104_kernel_partial 3 2 corners (fun _ => / 3)%R (11 / 10) Hw ltac:(lra) NF) as (m & l & E & _). exists (m, l). split; [exact E|].
    destruct (C104_draws 3 2 corners (fun _ => / 3)%R (11 / 10) coins (m, l) Hw ltac:(lra) NF coins_ok) as [A1 A2]; [|exact E|].
    + split.
      * intros [|[|i]] Hi; try lia; (split; [exact I|cbn; field]).
      * intros [|[|i]] [|[|j]] Hi Hj; try lia; (split; [exact I|cbn; field]).
    + split; [specialize (A1 1 ltac:(lia)); replace (mean_of 3 corners (fun _ => / 3)%R 1) with (/ 3)%R in A1; [exact A1|unfold mean_of, weighted_average, sum_below, corners; cbn; field]|].
      specialize (A2 0 1 ltac:(lia) ltac:(lia)).
      assert (M0 : mean_of 3 corners (fun _ => / 3)%R 0 = (/ 3)%R) by (unfold mean_of, weighted_average, sum_below, corners; cbn; field).
      assert (M1 : mean_of 3 corners (fun _ => / 3)%R 1 = (/ 3)%R) by (unfold mean_of, weighted_average, sum_below, corners; cbn; field).
      replace (121 / 100 * - / 9)%R with (11 / 10 * (11 / 10) * covariance_of 3 corners (fun _ => / 3)%R 0 1)%R by (unfold covariance_of, weighted_average; rewrite M0, M1; unfold sum_below, corners; cbn; field).
      rewrite M0, M1 in A2. exact A2.
  - assert (Hw : probabilities 2 (fun _ => / 2)%R) by (split; [intros; lra|unfold sum_below; cbn; field]).
    destruct (C104_fallback_refuted 2 2 diagonal (fun _ => / 2)%R (11 / 10) (fun i => if Nat.eq_dec i 0 then 1 else -1)%R Hw ltac:(lra)) as (m & l & E & _ & L & _).
    + exists 0. split; [lia|cbn; lra].
    + intros k k' _ _ _ _. unfold sum_below, diagonal. cbn. ring.
    + intros i _ C. specialize (C 0 1 ltac:(lia) ltac:(lia) ltac:(lra) ltac:(lra)). unfold diagonal in C. cbn in C. lra.
    + exists (m, l). split; [exact E|]. split; [cbn [snd]; rewrite L by lia; reflexivity|].
      unfold covariance_of, weighted_average, mean_of, weighted_average, sum_below, diagonal. cbn. field.
  - apply (C104_degenerate_refuted 3 2 corners _ (11 / 10) 1); try lia; try lra; [|reflexivity].
    split; [intros [|[|[|k]]] Hk; try lia; cbn; lra|unfold sum_below; cbn; ring].
Qed.
