(** The law of trajectories drawn backwards. *)
From Coq Require Import Reals List Bool Arith Lia Lra.
From Verif.Model Require Import Base Xf Tensor Weights Particle Smoothing.
From Verif.Spec Require Import WeightsSpec ResamplingSpec ParticleSpec SmoothingSpec UnbiasedSpec ConvergeSpec BackwardSpec.
From Verif.Proofs Require Import WeightsProofs MomentsProofs ParticleProofs UnbiasedProofs UnbiasedFilter.
Import ListNotations.
Local Open Scope nat_scope.

(** * Sums *)
Lemma sb_ext n f g : (forall i, i < n -> f i = g i) -> sum_below n f = sum_below n g.
Proof. apply (sumto_ext n f g). Qed.
Lemma sb_scal n a f : sum_below n (fun i => a * f i)%R = (a * sum_below n f)%R.
Proof. apply sumto_scal. Qed.
Lemma sb_swap n m (f : nat -> nat -> R) : sum_below n (fun i => sum_below m (f i)) = sum_below m (fun k => sum_below n (fun i => f i k)).
Proof.
  unfold sum_below, Rsum. induction (seq 0 n) as [|a l IH]; cbn [map fold_right].
  - induction (seq 0 m) as [|c l' IH']; cbn [map fold_right]; [reflexivity|]. rewrite <- IH'. ring.
  - rewrite IH. symmetry. apply (sumto_plus m (f a) (fun k => fold_right Rplus 0%R (map (fun i => f i k) l))).
Qed.
Lemma sb_pos n f : (forall i, i < n -> (0 <= f i)%R) -> (0 <= sum_below n f)%R.
Proof.
  intros H. unfold sum_below. assert (G : forall i, In i (seq 0 n) -> (0 <= f i)%R) by (intros i Hi; apply in_seq in Hi; apply H; lia).
  unfold Rsum. induction (seq 0 n) as [|a l IH]; cbn [map fold_right]; [lra|]. apply Rplus_le_le_0_compat; [apply G; now left|]. apply IH. intros i Hi. apply G. now right.
Qed.
Lemma sb_strict n f k : (forall i, i < n -> (0 <= f i)%R) -> k < n -> (0 < f k)%R -> (0 < sum_below n f)%R.
Proof.
  intros H Hk Hf. unfold sum_below. assert (G : forall i, In i (seq 0 n) -> (0 <= f i)%R) by (intros i Hi; apply in_seq in Hi; apply H; lia).
  assert (Hin : In k (seq 0 n)) by (apply in_seq; lia).
  unfold Rsum. induction (seq 0 n) as [|a l IH]; [destruct Hin|]; cbn [map fold_right]. destruct Hin as [->|Hin].
  - apply Rplus_lt_le_0_compat; [exact Hf|]. assert (G' : forall i, In i l -> (0 <= f i)%R) by (intros; apply G; now right).
    clear -G'. induction l as [|a l IH]; cbn [map fold_right]; [lra|]. apply Rplus_le_le_0_compat; [apply G'; now left|]. apply IH. intros i Hi. apply G'. now right.
  - apply Rplus_le_lt_0_compat; [apply G; now left|]. apply IH; [|exact Hin]. intros i Hi. apply G. now right.
Qed.

(** * Logits *)
Lemma lik_sum a d : (0 <= d)%R -> lik (xadd (Fin a) (log_of d)) = (exp a * d)%R.
Proof. intros Hd. unfold log_of. destruct (Rlt_dec 0 d) as [H|H]; cbn; [now rewrite exp_plus, exp_ln|]. replace d with 0%R by lra. ring. Qed.
Lemma logit_clean a d : finite_or_ninf (xadd (Fin a) (log_of d)).
Proof. unfold log_of. destruct (Rlt_dec 0 d); exact I. Qed.
Lemma logit_fin a d : (0 < d)%R -> is_fin (xadd (Fin a) (log_of d)).
Proof. intros H. unfold log_of. destruct (Rlt_dec 0 d); [exact I|contradiction]. Qed.

Section Law.
  Context {X U D : Type}.
  Variable lowest : R.
  Variables (pick : U -> mat xf -> res (mat nat)) (cat : D -> nat -> nat -> (nat -> nat -> list xf) -> res (mat nat)).
  Variables (LU : law U) (LD : law D).
  Hypothesis HU : law_ok LU.
  Hypothesis HD : law_ok LD.
  Variables n b j : nat.
  Hypothesis Hj : j < b.
  Hypothesis Hpick : fair_pick pick LU lowest n b j.
  Hypothesis Hcat : fair_categorical cat LD n b.
  Variable dens : nat -> nat -> X -> X -> R.
  Hypothesis Hdens : forall i t x x', (0 <= dens i t x x')%R.
  Notation trans := (fun t i x x' => log_of (dens i t x x')).

  Definition logits_of (s : corr X) (last : mat X) (i q : nat) : list xf :=
    map (fun k => xadd (m_get (c_w s) k q) (log_of (dens q (ts_time (c_x s)) (m_get (ts_val (c_x s)) k q) (m_get last i q)))) (seq 0 (m_rows (c_w s))).

  Definition fine (s : corr X) : Prop := state_ok n b s /\ entries is_fin (c_w s).
  (** [last] can come from [s]. *)
  Definition onto (s : corr X) (last : mat X) : Prop :=
    forall i q, i < n -> q < b -> exists k, k < n /\ (0 < dens q (ts_time (c_x s)) (m_get (ts_val (c_x s)) k q) (m_get last i q))%R.
  Fixpoint chained (rest : list (corr X)) (last : mat X) : Prop :=
    match rest with [] => True | s :: rest => onto s last /\ chained rest (ts_val (c_x s)) end.

  Lemma fine_weight s : fine s -> forall k q, k < n -> q < b -> exists a, m_get (c_w s) k q = Fin a.
  Proof. intros [[_ [W1 W2] _ _] Hf] k q Hk Hq. specialize (Hf k q ltac:(lia) ltac:(lia)). destruct (m_get (c_w s) k q); try destruct Hf. eauto. Qed.
  Lemma logits_proper s last i q : fine s -> onto s last -> i < n -> q < b -> length (logits_of s last i q) = n /\ proper_logits (logits_of s last i q).
  Proof.
    intros Hs Ho Hi Hq. pose proof Hs as [[_ [W1 W2] _ _] _]. unfold logits_of. rewrite W1. split; [now rewrite map_length, seq_length|]. split.
    - apply Forall_forall. intros z Hz. apply in_map_iff in Hz. destruct Hz as (k & <- & Hk). apply in_seq in Hk.
      destruct (fine_weight s Hs k q ltac:(lia) Hq) as [a ->]. apply logit_clean.
    - apply Exists_exists. destruct (Ho i q Hi Hq) as (k & Hk & Hp). eexists. split; [apply in_map, in_seq; split; [lia|]; exact Hk|].
      destruct (fine_weight s Hs k q Hk Hq) as [a ->]. now apply logit_fin.
  Qed.
  Lemma nth_seq_map {A} (f : nat -> A) k d : k < n -> nth k (map f (seq 0 n)) d = f k.
  Proof. intros Hk. rewrite (nth_indep _ d (f 0)) by (now rewrite map_length, seq_length). rewrite map_nth, seq_nth by exact Hk. reflexivity. Qed.

  Lemma weight_of s k : fine s -> k < n -> weight lowest j s k = (lik (m_get (c_w s) k j) / sum_below n (fun k => lik (m_get (c_w s) k j)))%R.
  Proof.
    intros Hs Hk. pose proof Hs as [[_ [W1 W2] _ _] _]. unfold weight, imp, col. rewrite W1, map_map, nth_seq_map by exact Hk.
    assert (E : forall i, i < n -> mass lowest (m_get (c_w s) i j) = lik (m_get (c_w s) i j)) by (intros i Hi; destruct (fine_weight s Hs i j Hi Hj) as [a ->]; reflexivity).
    rewrite E by exact Hk. f_equal. f_equal. unfold sum_below. rewrite map_map. f_equal. apply map_ext_in. intros i Hi. apply E. apply in_seq in Hi. lia.
  Qed.
  Lemma total_pos s : fine s -> 0 < n -> (0 < sum_below n (fun k => lik (m_get (c_w s) k j)))%R.
  Proof.
    intros Hs Hn. apply (sb_strict n _ 0); [|exact Hn|].
    - intros i Hi. destruct (fine_weight s Hs i j Hi Hj) as [a ->]. left. apply exp_pos.
    - destruct (fine_weight s Hs 0 j Hn Hj) as [a ->]. apply exp_pos.
  Qed.
  Lemma weight_pos s k : fine s -> k < n -> (0 < weight lowest j s k)%R.
  Proof.
    intros Hs Hk. rewrite (weight_of s k Hs Hk). apply Rdiv_lt_0_compat; [|apply total_pos; [exact Hs|lia]].
    destruct (fine_weight s Hs k j Hk Hj) as [a ->]. apply exp_pos.
  Qed.

  (** The probabilities of Categorical are the backward chances. *)
  Lemma chances_back s last i k : fine s -> onto s last -> i < n -> k < n ->
    (lik (nth k (logits_of s last i j) NaN) / Rsum (map lik (logits_of s last i j)) =
     ancestry lowest j (dens j) s (m_get last i j) k / sum_below n (ancestry lowest j (dens j) s (m_get last i j)))%R.
  Proof.
    intros Hs Ho Hi Hk. pose proof Hs as [[_ [W1 W2] _ _] _]. set (x := m_get last i j).
    set (S := sum_below n (fun k => lik (m_get (c_w s) k j))).
    set (f := fun k => (lik (m_get (c_w s) k j) * dens j (ts_time (c_x s)) (place j s k) x)%R).
    assert (Pn : 0 < n) by lia. pose proof (total_pos s Hs Pn) as PS. fold S in PS.
    assert (EL : forall k, k < n -> lik (xadd (m_get (c_w s) k j) (log_of (dens j (ts_time (c_x s)) (m_get (ts_val (c_x s)) k j) x))) = f k).
    { intros k' Hk'. unfold f. destruct (fine_weight s Hs k' j Hk' Hj) as [a ->]. now rewrite lik_sum. }
    assert (EA : forall k, k < n -> ancestry lowest j (dens j) s x k = (/ S * f k)%R).
    { intros k' Hk'. unfold ancestry. rewrite (weight_of s k' Hs Hk'). fold S. unfold f, Rdiv. ring. }
    assert (ES : Rsum (map lik (logits_of s last i j)) = sum_below n f).
    { unfold logits_of, sum_below. rewrite W1, map_map. f_equal. apply map_ext_in. intros q Hq. apply in_seq in Hq. apply EL. lia. }
    assert (Pf : (0 < sum_below n f)%R).
    { destruct (Ho i j Hi Hj) as (k0 & Hk0 & Hp). apply (sb_strict n f k0); [|exact Hk0|].
      - intros q Hq. unfold f. destruct (fine_weight s Hs q j Hq Hj) as [a ->]. apply Rmult_le_pos; [left; apply exp_pos|apply Hdens].
      - unfold f. destruct (fine_weight s Hs k0 j Hk0 Hj) as [a ->]. apply Rmult_lt_0_compat; [apply exp_pos|exact Hp]. }
    rewrite ES, (EA k Hk), (sb_ext n _ (fun k => / S * f k)%R EA), sb_scal. unfold logits_of. rewrite W1, nth_seq_map by exact Hk. fold x. rewrite (EL k Hk).
    field. split; [lra|]. lra.
  Qed.

  Lemma averages_sb {A} (L : law A) (HL : law_ok L) (f : nat -> A -> R) m : (forall i, i < n -> averages L (f i) (m i)) ->
    averages L (fun z => sum_below n (fun i => f i z)) (sum_below n m).
  Proof. intros H. apply averages_sum; [exact HL|]. intros i Hi. apply in_seq in Hi. apply H. lia. Qed.

  Lemma step_average s last (B : nat -> nat -> R) : fine s -> onto s last ->
    averages LD (fun d => match cat d n b (logits_of s last) with Ok idx => sum_below n (fun i => B i (m_get idx i j)) | Raise _ => 0%R end)
      (sum_below n (fun i => sum_below n (fun k => ancestry lowest j (dens j) s (m_get last i j) k / sum_below n (ancestry lowest j (dens j) s (m_get last i j)) * B i k)%R)).
  Proof.
    intros Hs Ho. destruct (Hcat (logits_of s last)) as [C1 C2]; [intros i q Hi Hq; now apply logits_proper|].
    apply (averages_ext LD HD (fun d => sum_below n (fun i => sum_below n (fun k =>
      B i k * match cat d n b (logits_of s last) with Ok s => if Nat.eq_dec (m_get s i j) k then 1%R else 0%R | Raise _ => 0%R end)%R))).
    - intros d Hd. destruct (C1 d Hd) as (idx & E & (V1 & V2) & V3). rewrite E. apply sb_ext. intros i Hi.
      rewrite <- (sumto_single n (m_get idx i j) (B i)) by (apply V3; lia). apply sb_ext. intros k _. destruct (Nat.eq_dec (m_get idx i j) k); ring.
    - apply averages_sb; [exact HD|]. intros i Hi. apply averages_sb; [exact HD|]. intros k Hk. rewrite Rmult_comm. apply averages_scal; [exact HD|].
      rewrite <- (chances_back s last i k Hs Ho Hi Hk). now apply C2.
  Qed.

  Notation loop w := (ffbs_loop trans (fun r => cat (snd (w r)))).
  Lemma ffbs_law F : forall rest r last (tails : nat -> list X) f w, Forall fine rest -> chained rest last -> shaped last n b ->
    (forall w', agree r w w' -> f w' = match loop w' r n b rest last with
       | Ok l => sum_below n (fun i => F (rev (map (fun m => m_get m i j) l) ++ m_get last i j :: tails i)) | Raise _ => 0%R end) ->
    averages_over LU LD (length rest) r f w (sum_below n (fun i => back lowest n j (dens j) rest (m_get last i j) (tails i) F)).
  Proof.
    induction rest as [|s rest IH]; intros r last tails f w Hf Hc Hl H.
    - split; [exact I|]. cbn [length average]. rewrite H by (intros i Hi; reflexivity). cbn [ffbs_loop]. reflexivity.
    - cbn [length back]. inversion_clear Hf as [|? ? Hs Hr]. destruct Hc as [Ho Hc].
      pose proof (logits_proper s last) as HP.
      destruct (Hcat (logits_of s last)) as [C1 _]; [intros i q Hi Hq; now apply HP|].
      apply over_step with (F := fun _ d => match cat d n b (logits_of s last) with
          | Ok idx => sum_below n (fun i => back lowest n j (dens j) rest (place j s (m_get idx i j)) (m_get last i j :: tails i) F) | Raise _ => 0%R end)
        (G := fun _ => sum_below n (fun i => sum_below n (fun k => ancestry lowest j (dens j) s (m_get last i j) k /
            sum_below n (ancestry lowest j (dens j) s (m_get last i j)) * back lowest n j (dens j) rest (place j s k) (m_get last i j :: tails i) F)%R)); try assumption.
      + intros u d Hu Hd. destruct (C1 d Hd) as (idx & E & Hv). pose proof Hv as ((V1 & V2) & V3). rewrite E.
        pose proof Hs as [[[X1 X2] _ _ _] _].
        destruct (batched_gather_spec (ts_val (c_x s)) idx) as (vals & Ev & [S1 S2] & G & _); [lia|now rewrite X1|].
        assert (Gv : forall i q, i < n -> q < b -> m_get vals i q = m_get (ts_val (c_x s)) (m_get idx i q) q) by (intros; apply G; lia).
        rewrite (sb_ext n _ (fun i => back lowest n j (dens j) rest (m_get vals i j) (m_get last i j :: tails i) F)) by (intros i Hi; now rewrite Gv).
        apply IH; try assumption.
        * destruct rest as [|s' rest]; [exact I|]. destruct Hc as [Ho' Hc]. split; [|exact Hc]. intros i q Hi Hq. rewrite (Gv i q Hi Hq). apply Ho'; [|exact Hq]. apply V3; lia.
        * split; congruence.
        * intros w' Hw. apply agree_put in Hw. destruct Hw as [Wr Hw]. rewrite (H w' Hw). cbn [ffbs_loop]. rewrite Wr. cbn [snd].
          change (fun i j => map _ (seq 0 (m_rows (c_w s)))) with (logits_of s last). rewrite E. cbn [bind]. rewrite Ev. cbn [bind].
          destruct (loop w' (S r) n b rest vals) as [l|e]; cbn [bind]; [|reflexivity]. apply sb_ext. intros i Hi. cbn [map rev]. now rewrite <- app_assoc.
      + intros u Hu. apply (step_average s last (fun i k => back lowest n j (dens j) rest (place j s k) (m_get last i j :: tails i) F)); assumption.
      + now apply averages_const.
  Qed.

  Lemma linked_snoc q (d : nat -> X -> X -> R) l s : linked n q d (l ++ [s]) -> linked n q d l.
  Proof. induction l as [|a l IH]; [reflexivity|]. destruct l as [|a' l]; [reflexivity|]. cbn. intros [H1 H2]. split; [exact H1|]. now apply IH. Qed.
  Lemma linked_last q (d : nat -> X -> X -> R) l s s' : linked n q d (l ++ [s; s']) -> forall k, k < n -> exists k', k' < n /\ (0 < d (ts_time (c_x s)) (place q s k') (place q s' k))%R.
  Proof.
    induction l as [|a l IH]; [intros [H _]; exact H|]. intros H. apply IH. destruct l as [|a' l]; destruct H as [_ H]; exact H.
  Qed.
  Lemma chained_linked rest : forall s, (forall q, q < b -> linked n q (dens q) (rev (s :: rest))) -> chained rest (ts_val (c_x s)).
  Proof.
    induction rest as [|s' rest IH]; intros s H; [exact I|]. split.
    - intros i q Hi Hq. specialize (H q Hq). cbn [rev] in H. rewrite <- app_assoc in H. cbn [app] in H.
      exact (linked_last q (dens q) _ _ _ H i Hi).
    - apply IH. intros q Hq. specialize (H q Hq). exact (linked_snoc q (dens q) _ _ H).
  Qed.

  Lemma col_map {A B} (g : A -> B) (m : mat A) q : map g (col m q) = map (fun i => g (m_get m i q)) (seq 0 (m_rows m)).
  Proof. unfold col. apply map_map. Qed.

  Theorem sample_ffbs_law F states r w : states <> [] -> Forall fine states -> (forall q, q < b -> linked n q (dens q) states) -> 0 < n ->
    averages_over LU LD (length states) r
      (fun w => trajectory_mean n j F (do_sample_ffbs (fun r => pick (fst (w r))) trans (fun r => cat (snd (w r))) r n b states)) w
      (backward_average lowest n j (dens j) states F).
  Proof.
    intros Hne Hf Hl Hn. destruct Hpick as [P1 P2]. unfold backward_average, do_sample_ffbs.
    destruct (rev states) as [|s rest] eqn:Er.
    { destruct Hne. rewrite <- (rev_involutive states), Er. reflexivity. }
    assert (Est : states = rev (s :: rest)) by (rewrite <- Er, rev_involutive; reflexivity).
    assert (Hall : Forall fine (s :: rest)) by (rewrite <- Er; apply Forall_rev; exact Hf).
    inversion_clear Hall as [|? ? Hs Hrest]. pose proof Hs as [[[X1 X2] [W1 W2] _ _] Hfin].
    assert (Hch : chained rest (ts_val (c_x s))) by (apply chained_linked; rewrite <- Est; exact Hl).
    replace (length states) with (S (length rest)) by (rewrite Est, rev_length; reflexivity).
    set (B := fun k => back lowest n j (dens j) rest (place j s k) [] F).
    assert (In : INR n <> 0%R) by (apply not_0_INR; lia).
    apply over_step with (F := fun u _ => match pick u (c_w s) with Ok idx => (/ INR n * sum_below n (fun i => B (m_get idx i j)))%R | Raise _ => 0%R end)
      (G := fun u => match pick u (c_w s) with Ok idx => (/ INR n * sum_below n (fun i => B (m_get idx i j)))%R | Raise _ => 0%R end); try assumption.
    - intros u d Hu Hd. destruct (P1 u (c_w s) Hu ltac:(now split)) as (idx & E & Hv). pose proof Hv as ((V1 & V2) & V3). rewrite E.
      destruct (batched_gather_spec (ts_val (c_x s)) idx) as (vals & Ev & [S1 S2] & G & _); [lia|now rewrite X1|].
      assert (Gv : forall i q, i < n -> q < b -> m_get vals i q = m_get (ts_val (c_x s)) (m_get idx i q) q) by (intros; apply G; lia).
      pose proof (ffbs_law (fun path => / INR n * F path)%R rest (S r) vals (fun _ => [])
        (fun w => trajectory_mean n j F (let! inds := pick (fst (w r)) (c_w s) in let! vals := batched_gather (ts_val (c_x s)) inds in
           let! l := loop w (S r) n b rest vals in Ok (rev (vals :: l)))) (put w r (u, d)) Hrest) as L.
      assert (Eb : forall rest x later c G, back lowest n j (dens j) rest x later (fun p => c * G p)%R = (c * back lowest n j (dens j) rest x later G)%R).
      { induction rest0 as [|s0 rest0 IH]; intros x later c G0; cbn [back]; [reflexivity|]. rewrite <- sb_scal. apply sb_ext. intros k _. rewrite IH. ring. }
      rewrite (sb_ext n _ (fun i => / INR n * B (m_get idx i j))%R) in L by (intros i Hi; rewrite Eb, (Gv i j Hi Hj); reflexivity).
      rewrite sb_scal in L. apply L.
      + destruct rest as [|s' rest]; [exact I|]. destruct Hch as [Ho' Hc]. split; [|exact Hc]. intros i q Hi Hq. rewrite (Gv i q Hi Hq). apply Ho'; [|exact Hq]. apply V3; lia.
      + split; congruence.
      + intros w' Hw. apply agree_put in Hw. destruct Hw as [Wr Hw]. rewrite Wr. cbn [fst]. rewrite E. cbn [bind]. rewrite Ev. cbn [bind].
        destruct (loop w' (S r) n b rest vals) as [l|e]; cbn [bind trajectory_mean]; [|reflexivity].
        rewrite <- sb_scal. apply sb_ext. intros i Hi. cbn [rev]. rewrite map_app, map_rev. reflexivity.
    - intros u Hu. now apply averages_const.
    - apply (averages_ext LU HU (fun u => / INR n * sum_below n (fun k => B k * match pick u (c_w s) with Ok s => INR (copies k (col s j)) | Raise _ => 0%R end))%R).
      + intros u Hu. destruct (P1 u (c_w s) Hu ltac:(now split)) as (idx & E & (V1 & V2) & V3). rewrite E. f_equal.
        pose proof (sum_copies n B (col idx j)) as S. rewrite col_map, V1 in S. unfold sum_below. rewrite S.
        * apply sumto_ext. intros i _. ring.
        * apply Forall_forall. intros k Hk. unfold col in Hk. apply in_map_iff in Hk. destruct Hk as (i & <- & Hi). apply in_seq in Hi. apply V3; lia.
      + replace (sum_below n (fun k => weight lowest j s k * back lowest n j (dens j) rest (place j s k) [] F)%R)
          with (/ INR n * sum_below n (fun k => B k * (INR n * weight lowest j s k)))%R.
        * apply averages_scal; [exact HU|]. apply averages_sb; [exact HU|]. intros k Hk. apply averages_scal; [exact HU|]. apply P2; [now split|exact Hfin|exact Hk].
        * rewrite <- sb_scal. apply sb_ext. intros k _. unfold B. field. exact In.
  Qed.
End Law.
