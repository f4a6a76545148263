(** Properties C61, C62, C79, C80 (pyfilter/inference/batch/mcmc). *)
From Coq Require Import Reals Lra Lia List Bool Arith.
From Verif.Model Require Import Base Xf Pmmh.
From Verif.Spec Require Import PmmhSpec.
Import ListNotations.
Local Open Scope list_scope.
Local Open Scope nat_scope.

(** * Lists side by side *)
Lemma zip_len {A B C} (f : A -> B -> C) a b n : List.length a = n -> List.length b = n -> List.length (zip_with f a b) = n.
Proof. intros. unfold zip_with. rewrite map_length, combine_length. lia. Qed.
Lemma combine_nth_error {A B} (a : list A) (b : list B) i x y : nth_error a i = Some x -> nth_error b i = Some y -> nth_error (combine a b) i = Some (x, y).
Proof. revert b i. induction a as [|a0 a IH]; intros [|b0 b] [|i]; cbn; try discriminate; [congruence|apply IH]. Qed.
Lemma zip_nth {A B C} (f : A -> B -> C) a b i x y : nth_error a i = Some x -> nth_error b i = Some y -> nth_error (zip_with f a b) i = Some (f x y).
Proof. intros E1 E2. unfold zip_with. rewrite nth_error_map, (combine_nth_error a b i x y E1 E2). reflexivity. Qed.
Lemma where_len {A} mask (b a : list A) n : List.length mask = n -> List.length b = n -> List.length a = n -> List.length (where_ mask b a) = n.
Proof. intros. unfold where_. apply zip_len; [assumption|]. rewrite combine_length. lia. Qed.
Lemma where_nth {A} mask (b a : list A) i m x y : nth_error mask i = Some m -> nth_error b i = Some x -> nth_error a i = Some y ->
  nth_error (where_ mask b a) i = Some (if m then x else y).
Proof. intros E1 E2 E3. unfold where_. rewrite (zip_nth _ _ _ i m (x, y)); [reflexivity|exact E1|]. now apply combine_nth_error. Qed.
Lemma nth_some {A} (l : list A) i : i < List.length l -> exists x, nth_error l i = Some x.
Proof. intros L. destruct (nth_error l i) eqn:E; [eauto|]. apply nth_error_None in E. lia. Qed.

Section Step.
  Context {T F K : Type} (ll : F -> xf) (log_prior : T -> xf) (build : list T -> list xf -> list F -> K) (log_prob : K -> list T -> list xf)
    (exchange_kernel : K -> K -> list bool -> K).
  Context (B : nat) (LP : log_prob_ok log_prob).
  Notation step := (run_pmmh ll log_prior build log_prob exchange_kernel).

  Lemma accepted_len rvs run w u mutate c : chains_ok B c -> List.length rvs = B -> List.length (run rvs) = B -> List.length u = B ->
    List.length (snd (step rvs run w u mutate c)) = B.
  Proof.
    intros [C1 C2] R N U. unfold run_pmmh. cbn [snd]. repeat first [apply zip_len | rewrite LP | rewrite map_length | assumption].
  Qed.
  (** The log ratio compared with the uniform number. *)
  Definition log_ratio (new_t old_t : T) (new_f old_f : F) (bwd fwd : xf) : xf :=
    xadd (xadd (xsub bwd fwd) (xsub (log_prior new_t) (log_prior old_t))) (xsub (ll new_f) (ll old_f)).
  Lemma accepted_nth rvs run w u mutate c b r t f g x y v : nth_error rvs b = Some r -> nth_error (positions c) b = Some t -> nth_error (results c) b = Some f ->
    nth_error (run rvs) b = Some g -> nth_error (log_prob (build rvs w (run rvs)) (positions c)) b = Some x -> nth_error (log_prob (kern c) rvs) b = Some y -> nth_error u b = Some v ->
    nth_error (snd (step rvs run w u mutate c)) b = Some (xlt (xlog (Fin v)) (log_ratio r t g f x y)).
  Proof.
    intros E1 E2 E3 E4 E5 E6 E7. unfold run_pmmh. cbn [snd]. apply zip_nth; [rewrite nth_error_map, E7; reflexivity|]. unfold log_ratio.
    repeat apply zip_nth; try assumption; rewrite nth_error_map, ?E1, ?E2, ?E3, ?E4; reflexivity.
  Qed.
End Step.

(** * C61 *)
(** After a step a chain's parameters and its filter result are both the candidate's or both the previous ones. *)
Theorem C61_step : forall {T F K} ll log_prior build log_prob exchange_kernel B rvs run f w u mutate (c : @chains T F K), log_prob_ok log_prob -> chains_ok B c ->
  List.length rvs = B -> run_ok B run f -> List.length u = B ->
  let (c', accepted) := run_pmmh ll log_prior build log_prob exchange_kernel rvs run w u mutate c in
  chains_ok B c' /\ List.length accepted = B /\
  forall b t r y, nth_error rvs b = Some t -> nth_error (positions c) b = Some r -> nth_error (results c) b = Some y ->
    (nth_error accepted b = Some true -> nth_error (positions c') b = Some t /\ nth_error (results c') b = Some (f b t)) /\
    (nth_error accepted b = Some false -> nth_error (positions c') b = Some r /\ nth_error (results c') b = Some y).
Proof.
  intros T F K ll log_prior build log_prob ex B rvs run f w u mutate c LP C R Ru U. destruct (Ru rvs R) as [N1 N2].
  pose proof (accepted_len ll log_prior build log_prob ex B LP rvs run w u mutate c C R N1 U) as L.
  destruct (run_pmmh _ _ _ _ _ _ _ _ _ _ _) as [c' accepted] eqn:E. cbn [snd] in L. destruct C as [C1 C2].
  assert (P : positions c' = where_ accepted rvs (positions c) /\ results c' = where_ accepted (run rvs) (results c)) by (unfold run_pmmh in E; injection E as <- <-; auto).
  destruct P as [P1 P2]. split; [split; [rewrite P1|rewrite P2]; now apply where_len|]. split; [exact L|].
  intros b t r y E1 E2 E3. rewrite P1, P2. split; intros A; (split; [rewrite (where_nth accepted rvs (positions c) b _ t r A E1 E2)|rewrite (where_nth accepted (run rvs) (results c) b _ (f b t) y A (N2 b t E1) E3)]); reflexivity.
Qed.
Print Assumptions C61_step.

(** The recorded chain of a fit: the initial position, then the position after every iteration, each entry the previous
    one or, where accepted, that iteration's candidate; the filter result in place belongs to the position in place. *)
Section Fit.
  Context {T F K : Type} (ll : F -> xf) (log_prior : T -> xf) (build : list T -> list xf -> list F -> K) (log_prob : K -> list T -> list xf)
    (exchange_kernel : K -> K -> list bool -> K).
  Context (B : nat) (rvs : nat -> K -> list T) (run : nat -> list T -> list F) (uniforms : nat -> list R) (f : nat -> nat -> T -> F).
  Context (LP : log_prob_ok log_prob) (Rv : forall i k, List.length (rvs i k) = B) (Ru : forall i, run_ok B (run i) (f i)) (Us : forall i, List.length (uniforms i) = B).
  Notation iter := (iterate ll log_prior build log_prob exchange_kernel).
  (** The result of chain [b] stems from a run with the parameters of chain [b]. *)
  Definition together (g : nat -> T -> F) (c : @chains T F K) : Prop :=
    forall b t y, nth_error (positions c) b = Some t -> nth_error (results c) b = Some y -> y = g b t \/ exists j, y = f j b t.
  Definition moves (i : nat) (before after : list T) : Prop := exists k accepted, List.length accepted = B /\ List.length after = B /\
    forall b t r, nth_error (rvs i k) b = Some t -> nth_error before b = Some r ->
      (nth_error accepted b = Some true -> nth_error after b = Some t) /\ (nth_error accepted b = Some false -> nth_error after b = Some r).
  Lemma iterate_spec g n : forall i c samples, chains_ok B c -> together g c -> exists tail, let (c', out) := iter n i rvs run uniforms c samples in
    out = samples ++ tail /\ List.length tail = n /\ chains_ok B c' /\ together g c' /\ nth n (positions c :: tail) [] = positions c' /\
    forall k, k < n -> moves (i + k) (nth k (positions c :: tail) []) (nth k tail []).
  Proof.
    induction n as [|n IH]; intros i c samples C G.
    - exists []. cbn. rewrite app_nil_r. repeat split; auto; try apply C; lia.
    - cbn [iterate]. set (p := run_pmmh _ _ _ _ _ _ _ _ _ _ _). pose proof (C61_step ll log_prior build log_prob exchange_kernel B (rvs i (kern c)) (run i) (f i) [] (uniforms i) true c LP C (Rv _ _) (Ru i) (Us i)) as St.
      fold p in St. destruct p as [c1 acc]. cbn [fst]. destruct St as (C1 & La & St).
      assert (G1 : together g c1).
      { intros b t y Q1 Q2. assert (Lb : b < B) by (rewrite <- (proj1 C1); apply nth_error_Some; congruence).
        destruct (nth_some (rvs i (kern c)) b) as [t0 E0]; [now rewrite Rv|]. destruct (nth_some (positions c) b) as [r E1]; [now rewrite (proj1 C)|].
        destruct (nth_some (results c) b) as [y0 E2]; [now rewrite (proj2 C)|]. destruct (nth_some acc b) as [a E3]; [now rewrite La|]. destruct (St b t0 r y0 E0 E1 E2) as [S1 S2].
        destruct a; [destruct (S1 E3) as [A1 A2]; right; exists i; congruence|destruct (S2 E3) as [A1 A2]]. rewrite A1 in Q1. rewrite A2 in Q2. injection Q1 as <-. injection Q2 as <-. now apply G. }
      destruct (IH (S i) c1 (samples ++ [positions c1]) C1 G1) as [tail H]. exists (positions c1 :: tail).
      destruct (iter n (S i) rvs run uniforms c1 (samples ++ [positions c1])) as [c2 out]. destruct H as (H1 & H2 & H3 & H4 & H5 & H6). split; [now rewrite <- app_assoc in H1|].
      split; [cbn; lia|]. split; [exact H3|]. split; [exact H4|]. split; [exact H5|]. intros [|k] L.
      + rewrite Nat.add_0_r. cbn [nth]. exists (kern c), acc. split; [exact La|]. split; [apply C1|]. intros b t r E1 E2. destruct (nth_some (results c) b) as [y E3].
        { rewrite (proj2 C), <- (proj1 C). apply nth_error_Some. congruence. }
        destruct (St b t r y E1 E2 E3) as [S1 S2]. split; intros Q; [apply (S1 Q)|apply (S2 Q)].
      + replace (i + S k) with (S i + k) by lia. apply H6. lia.
  Qed.

  Theorem C61_fit : forall n drawn mean first_run g, List.length mean = B -> run_ok B (first_run drawn) g ->
    exists c samples, fit ll log_prior build log_prob exchange_kernel InitMean n drawn mean first_run rvs run uniforms = Ok (c, samples) /\
      List.length samples = S n /\ nth 0 samples [] = mean /\ nth n samples [] = positions c /\ chains_ok B c /\
      (forall i, i < n -> moves i (nth i samples []) (nth (S i) samples [])) /\ together g c.
  Proof.
    intros n drawn mean first_run g L R. destruct (R mean L) as [R1 R2]. unfold fit, initialize. cbn [bind].
    set (c0 := Chains mean (first_run drawn mean) (build mean [] (first_run drawn mean))).
    destruct (iterate_spec g n 0 c0 [mean]) as [tail H]; [now split|intros b t y E1 E2; left; cbn in E1, E2; specialize (R2 b t E1); congruence|].
    destruct (iter n 0 rvs run uniforms c0 [mean]) as [c samples]. exists c, samples. destruct H as (-> & H2 & H3 & H4 & H5 & H6). split; [reflexivity|].
    split; [cbn; lia|]. split; [reflexivity|]. split; [exact H5|]. split; [exact H3|]. split; [|exact H4]. intros i I. exact (H6 i I).
  Qed.
  Theorem C61_other_initializers : forall i n drawn mean first_run, i <> InitMean ->
    fit ll log_prior build log_prob exchange_kernel i n drawn mean first_run rvs run uniforms = Raise NotImplementedError.
  Proof. intros [] n drawn mean first_run H; [reflexivity|now contradiction H|reflexivity]. Qed.
End Fit.
Print Assumptions C61_fit.
Print Assumptions C61_other_initializers.

(** * C62 *)
Lemma xlog_lt u r : (0 <= u < 1)%R -> xlt (xlog (Fin u)) (Fin r) = true <-> (u < acceptance r)%R.
Proof.
  intros [U1 U2]. unfold acceptance. cbn [xlog]. unfold rsign. destruct (total_order_T u 0) as [[H|H]|H]; [lra| |].
  - subst u. cbn. split; [intros _|reflexivity]. apply Rmin_glb_lt; [lra|apply exp_pos].
  - cbn. destruct (Rlt_dec (ln u) r) as [L|L].
    + split; [intros _|reflexivity]. apply Rmin_glb_lt; [lra|]. rewrite <- (exp_ln u H). now apply exp_increasing.
    + split; [discriminate|]. intros Q. exfalso. apply L. apply Rlt_le_trans with (ln (exp r)); [|rewrite ln_exp; lra].
      apply ln_increasing; [exact H|]. apply Rlt_le_trans with (1 := Q). apply Rmin_r.
Qed.
Lemma xlog_below_one u : (0 <= u < 1)%R -> xlt (xlog (Fin u)) PInf = true /\ xlt (xlog (Fin u)) NInf = false /\ xlt (xlog (Fin u)) NaN = false.
Proof. intros U. cbn [xlog]. unfold rsign. destruct (total_order_T u 0) as [[H|H]|H]; [lra| |]; repeat split; reflexivity. Qed.

(** With finite densities a candidate is accepted exactly if the uniform number is below [min 1 exp(r)], [r] the
    Metropolis-Hastings log ratio of prior times likelihood and the two reported proposal densities. *)
Theorem C62_rule : forall {T F K} ll log_prior build log_prob exchange_kernel rvs run w u mutate (c : @chains T F K) b r t f g x y v l l' p p',
  nth_error rvs b = Some r -> nth_error (positions c) b = Some t -> nth_error (results c) b = Some f -> nth_error (run rvs) b = Some g ->
  nth_error (log_prob (build rvs w (run rvs)) (positions c)) b = Some (Fin x) -> nth_error (log_prob (kern c) rvs) b = Some (Fin y) -> nth_error u b = Some v ->
  (0 <= v < 1)%R -> ll g = Fin l' -> ll f = Fin l -> log_prior r = Fin p' -> log_prior t = Fin p ->
  nth_error (snd (run_pmmh ll log_prior build log_prob exchange_kernel rvs run w u mutate c)) b =
    Some (if Rlt_dec v (acceptance (mh_log_ratio (p' + l') (p + l) y x)) then true else false).
Proof.
  intros T F K ll lp build log_prob ex rvs run w u mutate c b r t f g x y v l l' p p' E1 E2 E3 E4 E5 E6 E7 V L1 L2 P1 P2.
  rewrite (accepted_nth ll lp build log_prob ex rvs run w u mutate c b r t f g (Fin x) (Fin y) v) by assumption. f_equal. unfold log_ratio. rewrite L1, L2, P1, P2.
  cbn [xsub xopp xadd]. replace (x + - y + (p' + - p) + (l' + - l))%R with (mh_log_ratio (p' + l') (p + l) y x) by (unfold mh_log_ratio; ring).
  pose proof (xlog_lt v (mh_log_ratio (p' + l') (p + l) y x) V) as Q. destruct Rlt_dec as [A|A]; [now apply Q|]. destruct xlt; [|reflexivity]. exfalso. apply A, Q. reflexivity.
Qed.
Print Assumptions C62_rule.

(** A candidate with zero likelihood or an undefined ratio is rejected, a chain stuck at zero likelihood moves to any
    candidate with positive likelihood. *)
Theorem C62_degenerate : forall {T F K} ll log_prior build log_prob exchange_kernel rvs run w u mutate (c : @chains T F K) b r t f g x y v p p',
  nth_error rvs b = Some r -> nth_error (positions c) b = Some t -> nth_error (results c) b = Some f -> nth_error (run rvs) b = Some g ->
  nth_error (log_prob (build rvs w (run rvs)) (positions c)) b = Some (Fin x) -> nth_error (log_prob (kern c) rvs) b = Some (Fin y) -> nth_error u b = Some v ->
  (0 <= v < 1)%R -> log_prior r = Fin p' -> log_prior t = Fin p ->
  let accepted := nth_error (snd (run_pmmh ll log_prior build log_prob exchange_kernel rvs run w u mutate c)) b in
  (ll g = NInf -> accepted = Some false) /\ (ll g = NaN -> accepted = Some false) /\ (forall l, ll g = Fin l -> ll f = NInf -> accepted = Some true).
Proof.
  intros T F K ll lp build log_prob ex rvs run w u mutate c b r t f g x y v p p' E1 E2 E3 E4 E5 E6 E7 V P1 P2 accepted.
  assert (Q : accepted = Some (xlt (xlog (Fin v)) (log_ratio ll lp r t g f (Fin x) (Fin y)))) by now apply accepted_nth.
  destruct (xlog_below_one v V) as (X1 & X2 & X3). rewrite Q. unfold log_ratio. rewrite P1, P2. cbn [xsub xopp xadd]. split; [|split].
  - intros ->. destruct (ll f); cbn [xsub xopp xadd]; now rewrite ?X2, ?X3.
  - intros ->. cbn [xsub xopp xadd]. now rewrite X3.
  - intros l -> ->. cbn [xsub xopp xadd]. now rewrite X1.
Qed.
Print Assumptions C62_degenerate.

(** The acceptance probability is reversible: the flow from [a] to [b] equals the flow from [b] to [a]. *)
Theorem C62_balance : forall target_a target_b fwd bwd,
  (exp target_a * exp fwd * acceptance (mh_log_ratio target_b target_a fwd bwd) = exp target_b * exp bwd * acceptance (mh_log_ratio target_a target_b bwd fwd))%R.
Proof.
  assert (H : forall a b f g, (a + f <= b + g)%R -> (exp a * exp f * acceptance (mh_log_ratio b a f g) = exp b * exp g * acceptance (mh_log_ratio a b g f))%R).
  { intros a b f g L. unfold acceptance, mh_log_ratio. rewrite (Rmin_left 1), (Rmin_right 1).
    - rewrite <- !exp_plus, Rmult_1_r. f_equal. ring.
    - rewrite <- exp_0. destruct (Rle_lt_or_eq_dec _ _ L); [left; apply exp_increasing; lra|right; f_equal; lra].
    - rewrite <- exp_0. destruct (Rle_lt_or_eq_dec _ _ L); [left; apply exp_increasing; lra|right; f_equal; lra]. }
  intros a b f g. destruct (Rle_or_lt (a + f) (b + g)); [now apply H|]. symmetry. apply H. lra.
Qed.
Print Assumptions C62_balance.

(** * C62: the random walk *)
Definition centred {F} (scale : list R) (c : @chains (list R) F (list (list R * list R))) : Prop := kern c = map (fun r => (r, scale)) (positions c).
Lemma list_ext {A} (l m : list A) : (forall i, nth_error l i = nth_error m i) -> l = m.
Proof.
  revert m. induction l as [|a l IH]; intros [|b m] H; [reflexivity|specialize (H 0); discriminate|specialize (H 0); discriminate|]. pose proof (H 0) as H0. cbn in H0. injection H0 as ->.
  f_equal. apply IH. intros i. exact (H (S i)).
Qed.
Lemma where_const {A B} (s : B) mask (a b : list A) n : List.length mask = n -> List.length a = n -> List.length b = n ->
  where_ mask (map (fun _ => s) a) (map (fun _ => s) b) = repeat s n.
Proof.
  intros L1 L2 L3. apply list_ext. intros i. destruct (Nat.lt_ge_cases i n) as [I|I].
  - destruct (nth_some mask i) as [m E1]; [lia|]. destruct (nth_some a i) as [x E2]; [lia|]. destruct (nth_some b i) as [y E3]; [lia|].
    rewrite (where_nth mask _ _ i m s s); [|exact E1|rewrite nth_error_map, E2; reflexivity|rewrite nth_error_map, E3; reflexivity].
    rewrite (nth_error_nth' _ s) by now rewrite repeat_length. rewrite nth_repeat. now destruct m.
  - rewrite (proj2 (nth_error_None _ _)); [symmetry; apply nth_error_None; now rewrite repeat_length|]. rewrite (where_len mask _ _ n); rewrite ?map_length; auto.
Qed.
Lemma combine_repeat {A B} (s : B) (l : list A) : combine l (repeat s (List.length l)) = map (fun r => (r, s)) l.
Proof. induction l; cbn; f_equal; auto. Qed.
Lemma walk_probs scale (rows other : list (list R)) n : List.length rows = n -> List.length other = n ->
  walk_log_prob (map (fun r => (r, scale)) rows) other = zip_with (fun r x => normal_log_prob r scale x) rows other.
Proof.
  intros L1 L2. apply list_ext. intros i. destruct (Nat.lt_ge_cases i n) as [I|I].
  - destruct (nth_some rows i) as [x E1]; [lia|]. destruct (nth_some other i) as [y E2]; [lia|]. unfold walk_log_prob.
    rewrite (zip_nth _ _ _ i (x, scale) y), (zip_nth _ _ _ i x y); auto. now rewrite nth_error_map, E1.
  - unfold walk_log_prob. rewrite !(proj2 (nth_error_None _ _)); [reflexivity| |]; rewrite (zip_len _ _ _ n); rewrite ?map_length; auto.
Qed.
Lemma normal_sym scale a b : normal_log_prob a scale b = normal_log_prob b scale a.
Proof.
  unfold normal_log_prob. f_equal. revert scale b. induction a as [|x a IH]; intros [|s scale] [|y b]; cbn; try reflexivity. rewrite (IH scale b). f_equal. unfold normal_logpdf. f_equal. f_equal. f_equal. ring.
Qed.

Lemma walk_step {F} (ll : F -> xf) lp scale B rvs run w u c : chains_ok B c -> centred scale c -> List.length rvs = B -> List.length (run rvs) = B -> List.length u = B ->
  let c' := fst (run_pmmh ll lp (walk_build scale) walk_log_prob walk_exchange rvs run w u true c) in chains_ok B c' /\ centred scale c'.
Proof.
  intros [C1 C2] Ce R N U. unfold centred in Ce. unfold run_pmmh. cbn [fst]. rewrite Ce. unfold walk_build. rewrite (walk_probs scale rvs (positions c) B), (walk_probs scale (positions c) rvs B) by auto.
  set (acc := zip_with xlt _ _). assert (La : List.length acc = B) by (unfold acc; repeat first [apply zip_len | rewrite map_length | assumption]).
  split; [split; cbn; now apply where_len|]. unfold centred. cbn [kern positions]. unfold walk_exchange. rewrite !map_map. cbn [fst snd]. rewrite !map_id.
  rewrite (where_const scale acc _ _ B) by auto. rewrite <- combine_repeat. f_equal. f_equal. symmetry. now apply where_len.
Qed.

(** The random walk of a fit is centred at the current position at all times. *)
Theorem C62_walk_centred : forall {F} (ll : F -> xf) log_prior scale B rvs run uniforms n i c samples, chains_ok B c -> centred scale c ->
  (forall i k, List.length (rvs i k) = B) -> (forall i rows, List.length rows = B -> List.length (run i rows) = B) -> (forall i, List.length (uniforms i) = B) ->
  centred scale (fst (iterate ll log_prior (walk_build scale) walk_log_prob walk_exchange n i rvs run uniforms c samples)).
Proof.
  intros F ll lp scale B rvs run uniforms n. induction n as [|n IH]; intros i c samples C Ce Rv Ru Us; [exact Ce|]. cbn [iterate].
  destruct (walk_step ll lp scale B (rvs i (kern c)) (run i) [] (uniforms i) c C Ce) as [C' Ce']; auto.
Qed.
Print Assumptions C62_walk_centred.
Theorem C62_walk_starts : forall {F} scale theta (fs : list F), centred scale (Chains theta fs (walk_build scale theta [] fs)).
Proof. reflexivity. Qed.

(** And a centred walk accepts by the ratio of posterior densities alone. *)
Theorem C62_walk_rule : forall {F} (ll : F -> xf) log_prior scale B rvs run w u mutate c b r t f g v l l' p p', chains_ok B c -> centred scale c ->
  List.length rvs = B -> List.length (run rvs) = B -> nth_error rvs b = Some r -> nth_error (positions c) b = Some t -> nth_error (results c) b = Some f -> nth_error (run rvs) b = Some g -> nth_error u b = Some v ->
  (0 <= v < 1)%R -> ll g = Fin l' -> ll f = Fin l -> log_prior r = Fin p' -> log_prior t = Fin p ->
  nth_error (snd (run_pmmh ll log_prior (walk_build scale) walk_log_prob walk_exchange rvs run w u mutate c)) b =
    Some (if Rlt_dec v (acceptance ((p' + l') - (p + l))) then true else false).
Proof.
  intros F ll lp scale B rvs run w u mutate c b r t f g v l l' p p' [C1 C2] Ce R N E1 E2 E3 E4 E5 V L1 L2 P1 P2.
  assert (Q : exists q, normal_log_prob r scale t = Fin q) by (eexists; reflexivity). destruct Q as [q Q].
  rewrite (C62_rule ll lp (walk_build scale) walk_log_prob walk_exchange rvs run w u mutate c b r t f g q q v l l' p p'); auto.
  - unfold mh_log_ratio. replace (p' + l' + q - (p + l + q))%R with (p' + l' - (p + l))%R by ring. reflexivity.
  - unfold walk_build. rewrite (walk_probs scale rvs _ B) by auto. rewrite (zip_nth _ _ _ b r t E1 E2). now rewrite Q.
  - rewrite Ce. rewrite (walk_probs scale _ rvs B) by auto. rewrite (zip_nth _ _ _ b t r E2 E1). now rewrite normal_sym, Q.
Qed.
Print Assumptions C62_walk_rule.

(** * C62: refutations *)
Lemma sqrt_one : sqrt 1 = 1%R. Proof. apply sqrt_1. Qed.
Definition halves_weights : list xf -> list R := fun _ => [1 / 2; 1 / 2]%R.
Definition flat_step (old : R * R) (from to : list R) (u : list R) : chains * list bool :=
  run_pmmh (fun _ : unit => Fin 0) (fun _ : R => Fin 0) (symmetric_build halves_weights) symmetric_log_prob symmetric_exchange to (fun _ => [tt; tt]) [Fin 0; Fin 0] u false (Chains from [tt; tt] old).
Definition first_kernel : R * R := symmetric_build (F := unit) halves_weights [-1; 1]%R [] [].
Lemma first_kernel_eq : first_kernel = (0, 11 / 10)%R.
Proof.
  unfold first_kernel, symmetric_build, halves_weights. cbn. match goal with |- (?m, _) = _ => replace m with 0%R by lra end. f_equal.
  match goal with |- context [sqrt ?a] => replace a with 1%R by lra end. rewrite sqrt_1. lra.
Qed.
Lemma flat_step_first from to1 to2 m s v : symmetric_build (F := unit) halves_weights [to1; to2] [] [] = (m, s) ->
  nth_error (snd (flat_step first_kernel from [to1; to2] [v; v])) 0 =
    match from with [] => None | a :: _ => Some (xlt (xlog (Fin v)) (xadd (xadd (xsub (Fin (normal_logpdf m s a)) (Fin (normal_logpdf 0 (11 / 10) to1))) (xsub (Fin 0) (Fin 0))) (xsub (Fin 0) (Fin 0)))) end.
Proof.
  intros E. unfold flat_step, run_pmmh. cbn [snd kern positions]. assert (E' : forall w fs, symmetric_build (F := unit) halves_weights [to1; to2] w fs = (m, s)) by (intros; exact E).
  rewrite E', first_kernel_eq. destruct from as [|a from]; reflexivity.
Qed.

(** SymmetricMH on a flat target: the two chains are at -1 and 1, so the kernel is symmetric around 0, and chain 0 moves
    from -1 to 1.  Both positions have the same target and proposal density, so Metropolis-Hastings always accepts; the code
    accepts or rejects depending on where the other chain moves, because the backward density is taken from a kernel fitted
    to the candidates. *)
Theorem C62_symmetric_refuted : let v := exp (-1) in (0 <= v < 1)%R /\
  acceptance (mh_log_ratio 0 0 (normal_logpdf 0 (11 / 10) 1) (normal_logpdf 0 (11 / 10) (-1))) = 1%R /\
  nth_error (snd (flat_step first_kernel [-1; 1]%R [1; -1]%R [v; v])) 0 = Some true /\
  nth_error (snd (flat_step first_kernel [-1; 1]%R [1; 3]%R [v; v])) 0 = Some false.
Proof.
  intros v. assert (V : (0 <= v < 1)%R) by (unfold v; split; [left; apply exp_pos|rewrite <- exp_0; apply exp_increasing; lra]). split; [exact V|]. split; [|split].
  - unfold acceptance, mh_log_ratio. replace (0 + normal_logpdf 0 (11 / 10) (-1) - (0 + normal_logpdf 0 (11 / 10) 1))%R with 0%R by (unfold normal_logpdf; field_simplify; lra). rewrite exp_0. apply Rmin_left. lra.
  - rewrite (flat_step_first _ 1 (-1) 0 (11 / 10)).
    + f_equal. cbn [xsub xopp xadd]. match goal with |- xlt _ (Fin ?r) = _ => replace r with 0%R by (unfold normal_logpdf; field) end. apply (xlog_lt v _ V). unfold acceptance. rewrite exp_0, Rmin_left by lra. apply V.
    + unfold symmetric_build, halves_weights. cbn. match goal with |- (?m, _) = _ => replace m with 0%R by lra end. f_equal.
      match goal with |- context [sqrt ?a] => replace a with 1%R by lra end. rewrite sqrt_1. lra.
  - rewrite (flat_step_first _ 1 3 2 (11 / 10)).
    + f_equal. cbn [xsub xopp xadd]. match goal with |- xlt _ (Fin ?r) = _ => replace r with (- (8 / (2 * (11 / 10) ^ 2)))%R by (unfold normal_logpdf; field) end.
      pose proof (xlog_lt v (- (8 / (2 * (11 / 10) ^ 2))) V) as Q. destruct xlt; [|reflexivity]. assert (Q' : (v < acceptance (- (8 / (2 * (11 / 10) ^ 2))))%R) by now apply Q.
      exfalso. assert (Q2 : (v < exp (- (8 / (2 * (11 / 10) ^ 2))))%R) by (eapply Rlt_le_trans; [exact Q'|apply Rmin_r]). unfold v in Q2. apply exp_lt_inv in Q2. lra.
    + unfold symmetric_build, halves_weights. cbn. match goal with |- (?m, _) = _ => replace m with 2%R by lra end. f_equal.
      match goal with |- context [sqrt ?a] => replace a with 1%R by lra end. rewrite sqrt_1. lra.
Qed.
Print Assumptions C62_symmetric_refuted.

(** SymmetricMH never replaces its kernel: however long the chains run, proposals are drawn from the kernel fitted first. *)
Theorem C62_symmetric_fixed : forall {F} (ll : F -> xf) log_prior normalised rvs run uniforms n i c samples,
  kern (fst (iterate ll log_prior (symmetric_build normalised) symmetric_log_prob symmetric_exchange n i rvs run uniforms c samples)) = kern c.
Proof. intros F ll lp normalised rvs run uniforms n. induction n as [|n IH]; intros i c samples; [reflexivity|]. cbn [iterate]. rewrite IH. reflexivity. Qed.
Print Assumptions C62_symmetric_fixed.

(** A random walk inside a sequential kernel, which never exchanges proposals (mutate_kernel=False): one chain on a flat
    target, walk of scale one built at 0, chain now at 1, candidate -1.  The kernel drawn from is centred at 0 and gives
    both positions the same density, so Metropolis-Hastings always accepts; the code can reject. *)
Definition stale_walk (u : R) : chains * list bool :=
  run_pmmh (fun _ : unit => Fin 0) (fun _ : list R => Fin 0) (walk_build [1%R]) walk_log_prob walk_exchange [[-1]]%R (fun _ => [tt]) [Fin 0] [u] false (Chains [[1%R]] [tt] [([0%R], [1%R])]).
Theorem C62_stale_walk_refuted : let v := exp (-1) in (0 <= v < 1)%R /\
  acceptance (mh_log_ratio 0 0 (normal_logpdf 0 1 (-1)) (normal_logpdf 0 1 1)) = 1%R /\ snd (stale_walk v) = [false].
Proof.
  intros v. assert (V : (0 <= v < 1)%R) by (unfold v; split; [left; apply exp_pos|rewrite <- exp_0; apply exp_increasing; lra]). split; [exact V|]. split.
  - unfold acceptance, mh_log_ratio. replace (0 + normal_logpdf 0 1 1 - (0 + normal_logpdf 0 1 (-1)))%R with 0%R by (unfold normal_logpdf; field). rewrite exp_0. apply Rmin_left. lra.
  - unfold stale_walk, run_pmmh. cbn [snd]. unfold walk_build, walk_log_prob, zip_with, normal_log_prob. cbn [map combine fst snd positions kern results fold_right xsub xopp xadd]. f_equal.
    match goal with |- xlt _ (Fin ?r) = _ => replace r with (- (3 / 2))%R by (unfold normal_logpdf; field) end.
    pose proof (xlog_lt v (- (3 / 2)) V) as Q. destruct xlt; [|reflexivity]. assert (Q' : (v < acceptance (- (3 / 2)))%R) by now apply Q.
    exfalso. assert (Q2 : (v < exp (- (3 / 2)))%R) by (eapply Rlt_le_trans; [exact Q'|apply Rmin_r]). unfold v in Q2. apply exp_lt_inv in Q2. lra.
Qed.
Print Assumptions C62_stale_walk_refuted.

(** * The hypotheses can be met: two chains walking on the line, with likelihood [- x^2] *)
Definition two_chains : @chains (list R) (list R) (list (list R * list R)) := Chains [[0]; [1]]%R [[0]; [1]]%R (walk_build (F := list R) [1%R] [[0]; [1]]%R [] []).
Definition square_ll (f : list R) : xf := match f with [x] => Fin (- x ^ 2) | _ => NaN end.
Example C61_nonvacuous :
  chains_ok 2 two_chains /\ centred [1%R] two_chains /\ run_ok 2 (fun rows : list (list R) => rows) (fun _ r => r) /\ uniforms_ok 2 [1 / 2; 1 / 4]%R /\
  log_prob_ok (fun (k : unit) (rows : list (list R)) => map (fun _ => Fin 0) rows).
Proof.
  split; [split; reflexivity|]. split; [reflexivity|]. split; [intros rows L; auto|]. split; [split; [reflexivity|repeat constructor; lra]|]. intros k rows. apply map_length.
Qed.
Example C62_nonvacuous : nth_error (snd (run_pmmh square_ll (fun _ => Fin 0) (walk_build [1%R]) walk_log_prob walk_exchange [[1]; [0]]%R (fun rows => rows) [] [1 / 2; 1 / 2]%R true two_chains)) 1 = Some true.
Proof.
  rewrite (C62_walk_rule square_ll (fun _ => Fin 0) [1%R] 2 _ _ _ _ _ two_chains 1 [0%R] [1%R] [1%R] [0%R] (1 / 2) (- 1 ^ 2) (- 0 ^ 2) 0 0); try reflexivity; try lra; [|split; reflexivity].
  destruct Rlt_dec as [H|H]; [reflexivity|]. exfalso. apply H. unfold acceptance. rewrite Rmin_left; [lra|]. match goal with |- (1 <= exp ?r)%R => assert (P : (0 < r)%R) by (cbn [pow]; lra); pose proof (exp_increasing 0 r P) as X end. rewrite exp_0 in X. lra.
Qed.

(** * C79: the first likelihood belongs to the first parameters *)
(** It does if the model only holds the parameter objects themselves. *)
Theorem C79_partial : forall {T F K} ll log_prior build log_prob exchange_kernel rvs run uniforms drawn mean first_run (f : nat -> T -> F),
  (forall d, run_ok (List.length mean) (first_run d) f) ->
  exists c samples, fit (K := K) ll log_prior build log_prob exchange_kernel InitMean 0 drawn mean first_run rvs run uniforms = Ok (c, samples) /\
    forall b t y, nth_error (positions c) b = Some t -> nth_error (results c) b = Some y -> y = f b t.
Proof.
  intros T F K ll lp build log_prob ex rvs run uniforms drawn mean first_run f H. do 2 eexists. split; [reflexivity|]. cbn [positions results].
  intros b t y E1 E2. destruct (H drawn mean eq_refl) as [_ N]. specialize (N b t E1). congruence.
Qed.
Print Assumptions C79_partial.
(** A model builder that computes with the parameters (say, a scale from a log scale) sees the prior draws: they are
    overwritten by the means only afterwards, and the model is not built again. *)
Theorem C79_refuted : let builder_computes := fun (at_build now : list R) => at_build in
  forall (K : Type) ll log_prior build log_prob exchange_kernel rvs run uniforms,
  exists c samples, fit (K := K) ll log_prior build log_prob exchange_kernel InitMean 0 [5%R] [0%R] builder_computes rvs run uniforms = Ok (c, samples) /\
    positions c = [0%R] /\ results c = [5%R] /\ builder_computes (positions c) (positions c) <> results c.
Proof.
  intros builder K ll lp build log_prob ex rvs run uniforms. do 2 eexists. split; [reflexivity|]. cbn. split; [reflexivity|]. split; [reflexivity|]. intros E. injection E. lra.
Qed.
Print Assumptions C79_refuted.
Example C79_nonvacuous : forall d, run_ok (List.length [[0]; [1]]%R) ((fun (at_build now : list (list R)) => now) d) (fun _ r => r).
Proof. intros d rows L. auto. Qed.

(** * C80: the gradient proposal *)
(** The first kernel built from a context is centred at [theta + eps * gradient]. *)
Theorem C80_first_partial : forall eps theta g, fst (gradient_build eps 0 theta g) = (theta + eps * g)%R.
Proof. intros. cbn. ring. Qed.
(** Later ones contain all earlier gradients. *)
Theorem C80_accumulates_refuted : forall eps l theta g, 
  nth_error (gradient_locations eps 0 (l ++ [(theta, g)])) (List.length l) = Some (theta + eps * g + eps * fold_right Rplus 0 (map snd l))%R.
Proof.
  intros eps l theta g. assert (H : forall a, nth_error (gradient_locations eps a (l ++ [(theta, g)])) (List.length l) = Some (theta + eps * g + eps * (a + fold_right Rplus 0 (map snd l)))%R).
  { induction l as [|[t h] l IH]; intros a; cbn; [f_equal; ring|]. rewrite IH. f_equal. ring. }
  rewrite H. f_equal. ring.
Qed.
Print Assumptions C80_accumulates_refuted.
Theorem C80_witness_refuted : nth_error (gradient_locations (1 / 2) 0 [(0, 1); (0, 1)]%R) 1 = Some 1%R /\ (0 + 1 / 2 * 1 <> 1)%R.
Proof. split; [cbn; f_equal; lra|lra]. Qed.
