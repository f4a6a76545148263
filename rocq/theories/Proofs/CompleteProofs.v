(** The factors of smoothed trajectories are means of complete log densities. *)
From Coq Require Import Reals List Bool Arith Lia Lra String.
From Verif.Model Require Import Base Xf Tensor Weights Particle Smoothing Complete.
From Verif.Spec Require Import WeightsSpec ParticleSpec ConvergeSpec CompleteSpec.
From Verif.Proofs Require Import WeightsProofs MomentsProofs UnbiasedFilter BackwardProofs.
Import ListNotations.
Local Open Scope nat_scope.
Local Notation length := List.length.

(** * Lists *)
Lemma nth_map_seq {A} (f : nat -> A) m t d : t < m -> nth t (map f (seq 0 m)) d = f t.
Proof. apply nth_seq_map. Qed.
Lemma list_seq {A} (l : list A) d m : length l = m -> l = map (fun t => nth t l d) (seq 0 m).
Proof.
  intros H. apply (nth_ext _ _ d d); [now rewrite map_length, seq_length|]. intros t Ht. rewrite nth_map_seq by lia. reflexivity.
Qed.
Lemma combine_map_seq {A B} (f : nat -> A) (g : nat -> B) s m : combine (map f (seq s m)) (map g (seq s m)) = map (fun t => (f t, g t)) (seq s m).
Proof. revert s. induction m as [|m IH]; intros s; [reflexivity|]. cbn [seq map combine]. now rewrite IH. Qed.
Lemma nth_removelast {A} (l : list A) t d : S t < length l -> nth t (removelast l) d = nth t l d.
Proof.
  revert t. induction l as [|x l IH]; intros t H; [reflexivity|]. destruct l as [|y l]; [simpl in H; lia|]. cbn [removelast]. destruct t as [|t]; [reflexivity|].
  cbn [nth]. apply IH. simpl in *. lia.
Qed.
Lemma length_removelast {A} (l : list A) : length (removelast l) = length l - 1.
Proof. induction l as [|x l IH]; [reflexivity|]. destruct l as [|y l]; [reflexivity|]. cbn [removelast length] in *. rewrite IH. simpl. lia. Qed.
Lemma nth_tl {A} (l : list A) t d : nth t (tl l) d = nth (S t) l d.
Proof. destruct l; [now destruct t|reflexivity]. Qed.
Lemma length_tl {A} (l : list A) : length (tl l) = length l - 1.
Proof. destruct l; simpl; lia. Qed.

Lemma multiples k m : 0 < k -> filter (fun i => i mod k =? 0) (seq 0 (k * m + 1)) = map (fun q => k * q) (seq 0 (S m)).
Proof.
  intros Hk. induction m as [|m IH].
  - rewrite Nat.mul_0_r. cbn [Nat.add seq filter map]. rewrite Nat.mod_0_l by lia. now rewrite Nat.mul_0_r.
  - rewrite (seq_S (S m) 0), map_app, <- IH. replace (k * S m + 1) with ((k * m + 1) + k) by lia. rewrite seq_app, filter_app. f_equal. cbn [Nat.add map].
    replace k with ((k - 1) + 1) at 2 by lia. rewrite seq_app, filter_app.
    assert (E : filter (fun i => i mod k =? 0) (seq (k * m + 1) (k - 1)) = []).
    { assert (G : forall i, In i (seq (k * m + 1) (k - 1)) -> (i mod k =? 0) = false).
      { intros i Hi. apply in_seq in Hi. apply Nat.eqb_neq. replace i with ((i - k * m) + m * k) by lia. rewrite Nat.mod_add by lia. rewrite Nat.mod_small; lia. }
      induction (seq (k * m + 1) (k - 1)) as [|i l IHl]; [reflexivity|]. cbn [filter]. rewrite G by now left. apply IHl. intros; apply G; now right. }
    rewrite E. cbn [app seq filter]. replace (k * m + 1 + (k - 1)) with (S m * k) by lia. rewrite Nat.mod_mul by lia. cbn [Nat.eqb]. f_equal. lia.
Qed.
Lemma filter_map_comm {A B} (f : A -> B) (p : B -> bool) l : filter p (map f l) = map f (filter (fun x => p (f x)) l).
Proof. induction l as [|x l IH]; [reflexivity|]. cbn [map filter]. destruct (p (f x)); cbn [map]; now rewrite IH. Qed.
Lemma stride_spec {A} k m (l : list A) d : 0 < k -> length l = k * m + 1 -> stride k l = map (fun q => nth (k * q) l d) (seq 0 (S m)).
Proof.
  intros Hk Hl. unfold stride. rewrite Hl. rewrite (list_seq l d _ Hl) at 1.
  rewrite <- (map_id (seq 0 (k * m + 1))) at 1. rewrite combine_map_seq, filter_map_comm, map_map. cbn [fst snd].
  rewrite (multiples k m Hk), map_map. reflexivity.
Qed.

(** * Sums *)
Lemma xsum_seq (f : nat -> xf) (g : nat -> R) m : (forall t, t < m -> f t = Fin (g t)) -> xsum (map f (seq 0 m)) = Fin (sum_below m g).
Proof. intros H. apply (xsum_map_fin f g). intros t Ht. apply in_seq in Ht. apply H. lia. Qed.
Lemma mean_over_fin n (f : nat -> xf) (g : nat -> R) : 0 < n -> (forall i, i < n -> f i = Fin (g i)) -> mean_over n f = Fin (/ INR n * sum_below n g).
Proof.
  intros Hn H. unfold mean_over. rewrite (xsum_seq f g n H). cbn [xdiv]. destruct (Req_EM_T (INR n) 0) as [E|E]; [exfalso; apply (not_0_INR n); [lia|exact E]|].
  f_equal. unfold Rdiv. ring.
Qed.

Lemma sb_add n f g : sum_below n (fun i => f i + g i)%R = (sum_below n f + sum_below n g)%R.
Proof. unfold sum_below. induction (seq 0 n) as [|k l IH]; cbn [map]; unfold Rsum in *; cbn [fold_right]; [ring|]. rewrite IH. ring. Qed.

Section Factors.
  Context {X Y : Type}.
  Variables (li : X -> R) (lh : nat -> X -> X -> R) (lo : nat -> X -> Y -> R).
  Notation hl := (fun t x x' => Fin (lh t x x')).
  Notation ol := (fun t x y => Fin (lo t x y)).
  Notation il := (fun x => Fin (li x)).
  Variables n j : nat.
  Hypothesis Hn : 0 < n.
  Variable d : X.
  Definition dm : mat X := Mat 0 0 (fun _ _ => d).
  Definition trajectory (x : list (mat X)) (i : nat) : list X := map (fun m => m_get m i j) x.

  Lemma nth_trajectory x i t : nth t (trajectory x i) d = m_get (nth t x dm) i j.
  Proof. unfold trajectory. change d with ((fun m : mat X => m_get m i j) dm) at 1. apply (map_nth (fun m : mat X => m_get m i j)). Qed.

  Lemma hidden_rows_seq x m : length x = S m -> hidden_rows hl j 0 (seq 0 (S m)) x =
    map (fun t i => Fin (lh t (nth t (trajectory x i) d) (nth (S t) (trajectory x i) d))) (seq 0 m).
  Proof.
    intros Hx. unfold hidden_rows.
    assert (E1 : removelast (seq 0 (S m)) = map (fun t => t) (seq 0 m)) by (rewrite seq_S, removelast_last, map_id; reflexivity).
    assert (E2 : removelast x = map (fun t => nth t x dm) (seq 0 m)).
    { rewrite (list_seq (removelast x) dm m) by (rewrite length_removelast; lia). apply map_ext_in. intros t Ht. apply in_seq in Ht. apply nth_removelast. lia. }
    assert (E3 : tl x = map (fun t => nth (S t) x dm) (seq 0 m)).
    { rewrite (list_seq (tl x) dm m) by (rewrite length_tl; lia). apply map_ext. intros t. apply nth_tl. }
    rewrite E1, E2, E3, !combine_map_seq, map_map. apply map_ext_in. intros t _.
    rewrite Nat.add_0_l. reflexivity || idtac.
    assert (G : forall i, m_get (nth t x dm) i j = nth t (trajectory x i) d /\ m_get (nth (S t) x dm) i j = nth (S t) (trajectory x i) d) by (intros; now rewrite !nth_trajectory).
    apply FunctionalExtensionality.functional_extensionality. intros i. destruct (G i) as [-> ->]. reflexivity.
  Qed.
  Lemma sum_hidden x m i : length x = S m -> sum_rows (hidden_rows hl j 0 (seq 0 (S m)) x) i =
    Fin (sum_below m (fun t => lh t (nth t (trajectory x i) d) (nth (S t) (trajectory x i) d))).
  Proof. intros Hx. rewrite (hidden_rows_seq x m Hx). unfold sum_rows. rewrite map_map. now apply xsum_seq. Qed.

  (** The observations made at the times [1 + every * q]. *)
  Definition obs_sum (every : nat) (path : list X) (ys : list Y) : R :=
    Rsum (map (fun p => let time := (1 + every * fst p)%nat in lo time (nth time path d) (snd p)) (combine (seq 0 (length ys)) ys)).
  Lemma obs_rows_seq every x ys : length ys <> 0 ->
    let T := length ys in
    exists rows, obs_rows ol j 0 (map (fun q => 1 + every * q) (seq 0 T)) (map (fun q => nth (1 + every * q) x dm) (seq 0 T)) ys = Ok rows /\
      length rows = T /\ forall i, sum_rows rows i = Fin (obs_sum every (trajectory x i) ys).
  Proof.
    intros HT T. destruct ys as [|y0 ys0]; [contradiction|]. set (ys := y0 :: ys0) in *. unfold obs_rows, broadcast.
    rewrite combine_map_seq, map_length, seq_length. fold T. rewrite Nat.eqb_refl. cbn [bind]. eexists. split; [reflexivity|]. split.
    - rewrite map_length, combine_length, map_length, seq_length. unfold T. lia.
    - intros i. unfold sum_rows, obs_sum. rewrite map_map. rewrite (list_seq ys y0 T eq_refl) at 1. rewrite combine_map_seq, map_map.
      rewrite (list_seq ys y0 T eq_refl) at 2. rewrite <- (map_id (seq 0 (length ys))) at 1. fold T. rewrite combine_map_seq, map_map.
      rewrite (xsum_seq _ (fun q => lo (1 + every * q) (nth (1 + every * q) (trajectory x i) d) (nth q ys y0))); [reflexivity|].
      intros q _. now rewrite nth_trajectory.
  Qed.

  Lemma pyro_factor_mean every x ys : 0 < every -> ys <> [] -> length x = 2 + every * (length ys - 1) ->
    pyro_factor il hl ol n j every (seq 0 (length x)) x ys =
    Ok (Fin (/ INR n * sum_below n (fun i => complete li lh lo every d (trajectory x i) ys))).
  Proof.
    intros He Hy Hx. set (T := length ys) in *. assert (HT : 0 < T) by (unfold T; destruct ys; [congruence|simpl; lia]).
    assert (Ex : exists x0 x', x = x0 :: x') by (destruct x as [|x0 x']; [discriminate|eauto]). destruct Ex as (x0 & x' & Ex).
    assert (E0 : forall i, m_get x0 i j = nth 0 (trajectory x i) d) by (intros; now rewrite nth_trajectory, Ex).
    assert (E1 : stride every (tl (seq 0 (length x))) = map (fun q => 1 + every * q) (seq 0 T)).
    { assert (L1 : length (tl (seq 0 (length x))) = every * (T - 1) + 1) by (rewrite length_tl, seq_length, Hx; cbn [Nat.add]; rewrite Nat.add_comm; cbn; lia).
      rewrite (stride_spec every (T - 1) _ 0 He L1). replace (S (T - 1)) with T by lia. apply map_ext_in. intros q Hq. apply in_seq in Hq.
      pose proof (Nat.mul_le_mono_l q (T - 1) every ltac:(lia)) as Hm. rewrite nth_tl, seq_nth; lia. }
    assert (E2 : stride every (tl x) = map (fun q => nth (1 + every * q) x dm) (seq 0 T)).
    { assert (L2 : length (tl x) = every * (T - 1) + 1) by (rewrite length_tl, Hx; cbn [Nat.add]; rewrite Nat.add_comm; cbn; lia).
      rewrite (stride_spec every (T - 1) _ dm He L2). replace (S (T - 1)) with T by lia. apply map_ext. intros q. apply nth_tl. }
    destruct (obs_rows_seq every x ys ltac:(fold T; lia)) as (rows & Eo & Lr & So). fold T in Eo.
    assert (Lx : length x = S (length x - 1)) by lia.
    assert (G : mean_over n (fun i => xadd (xadd (sum_rows (hidden_rows hl j 0 (seq 0 (length x)) x) i) (sum_rows rows i)) (il (m_get x0 i j))) =
      Fin (/ INR n * sum_below n (fun i => complete li lh lo every d (trajectory x i) ys))).
    { apply mean_over_fin; [exact Hn|]. intros i Hi. rewrite Lx at 1. rewrite (sum_hidden x _ i Lx), So, E0. cbn [xadd]. f_equal.
      unfold complete. replace (length (trajectory x i)) with (length x) by (unfold trajectory; now rewrite map_length). fold (obs_sum every (trajectory x i) ys). ring. }
    unfold pyro_factor. rewrite Ex at 1. rewrite E1, E2, Eo. cbn [bind]. now rewrite G.
  Qed.

  Lemma likelihood_mean prior x ys : ys <> [] -> length x = S (length ys) ->
    model_likelihood il hl ol n j 0 (Fin prior) (seq 0 (length x)) x ys =
    Ok (Fin (/ INR n * sum_below n (fun i => complete li lh lo 1 d (trajectory x i) ys) + prior)).
  Proof.
    intros Hy Hx. set (T := length ys) in *. assert (HT : 0 < T) by (unfold T; destruct ys; [congruence|simpl; lia]).
    assert (Ex : exists x0 x', x = x0 :: x') by (destruct x as [|x0 x']; [discriminate|eauto]). destruct Ex as (x0 & x' & Ex).
    assert (E0 : forall i, m_get x0 i j = nth 0 (trajectory x i) d) by (intros; now rewrite nth_trajectory, Ex).
    assert (E1 : tl (seq 0 (length x)) = map (fun q => 1 + 1 * q) (seq 0 T)).
    { rewrite (list_seq (tl (seq 0 (length x))) 0 T) by (rewrite length_tl, seq_length; lia). apply map_ext_in. intros q Hq. apply in_seq in Hq. rewrite nth_tl, seq_nth; lia. }
    assert (E2 : tl x = map (fun q => nth (1 + 1 * q) x dm) (seq 0 T)).
    { rewrite (list_seq (tl x) dm T) by (rewrite length_tl; lia). apply map_ext_in. intros q Hq. rewrite nth_tl. f_equal. lia. }
    destruct (obs_rows_seq 1 x ys ltac:(fold T; lia)) as (rows & Eo & Lr & So). fold T in Eo, Lr.
    pose proof (hidden_rows_seq x T Hx) as Hh. rewrite <- Hx in Hh. set (hid := hidden_rows hl j 0 (seq 0 (length x)) x) in *.
    assert (Lh : length hid = T) by (rewrite Hh, map_length, seq_length; reflexivity).
    assert (G : forall (h o : list (nat -> xf)) i, length h = length o -> (exists a, sum_rows h i = Fin a) -> (exists a, sum_rows o i = Fin a) ->
      sum_rows (map (fun p i => xadd (fst p i) (snd p i)) (combine h o)) i = xadd (sum_rows h i) (sum_rows o i)).
    { intros h. induction h as [|a h IH]; intros [|c o] i L A B; try discriminate; [unfold sum_rows; cbn; f_equal; ring|].
      unfold sum_rows in *. cbn [map combine xsum fst snd fold_right] in *. unfold xsum in *. cbn [fold_right] in *.
      destruct A as [ra A], B as [rb B].
      assert (Q : forall u v r, xadd u v = Fin r -> exists p q, u = Fin p /\ v = Fin q) by (intros [p| | |] [q| | |] rr Hq; try discriminate; eauto).
      destruct (Q _ _ _ A) as (pa & qa & P1 & P2). destruct (Q _ _ _ B) as (pb & qb & P3 & P4).
      rewrite IH; [|now injection L|eauto|eauto]. rewrite P1, P2, P3, P4. cbn [xadd]. f_equal. ring. }
    assert (Sh : forall i, sum_rows hid i = Fin (sum_below T (fun t => lh t (nth t (trajectory x i) d) (nth (S t) (trajectory x i) d)))).
    { intros i. unfold hid. rewrite Hx. apply sum_hidden. exact Hx. }
    assert (M : mean_over n (sum_rows (map (fun p i => xadd (fst p i) (snd p i)) (combine hid rows))) =
      Fin (/ INR n * sum_below n (fun i => sum_below T (fun t => lh t (nth t (trajectory x i) d) (nth (S t) (trajectory x i) d)) + obs_sum 1 (trajectory x i) ys)%R)).
    { apply mean_over_fin; [exact Hn|]. intros i Hi. rewrite G; [|lia|rewrite Sh; eauto|rewrite So; eauto]. now rewrite Sh, So. }
    assert (I : mean_over n (fun i => il (m_get x0 i j)) = Fin (/ INR n * sum_below n (fun i => li (nth 0 (trajectory x i) d)))).
    { apply mean_over_fin; [exact Hn|]. intros i Hi. now rewrite E0. }
    unfold model_likelihood. rewrite Ex at 1. rewrite E1, E2, Eo. cbn [bind]. fold hid. unfold broadcast. rewrite Lh, Lr, Nat.eqb_refl. cbn [bind].
    rewrite M, I. cbn [xadd]. do 2 f_equal.
    rewrite (sb_ext n (fun i => complete li lh lo 1 d (trajectory x i) ys) (fun i => li (nth 0 (trajectory x i) d) + (sum_below T (fun t => lh t (nth t (trajectory x i) d) (nth (S t) (trajectory x i) d)) + obs_sum 1 (trajectory x i) ys))%R).
    - rewrite (sb_add n (fun i => li (nth 0 (trajectory x i) d))). ring.
    - intros i _. unfold complete. replace (length (trajectory x i)) with (length x) by (unfold trajectory; now rewrite map_length). fold (obs_sum 1 (trajectory x i) ys).
      replace (length x - 1) with T by lia. ring.
  Qed.
End Factors.

(** * Lengths *)
Lemma ffbs_loop_length {X} trans cat n b (rest : list (corr X)) : forall r last out, ffbs_loop trans cat r n b rest last = Ok out -> length out = length rest.
Proof.
  induction rest as [|s rest IH]; intros r last out H; cbn [ffbs_loop] in H; [injection H as <-; cbn; lia|].
  destruct (cat _ _ _ _) as [i|e]; [|discriminate]. cbn [bind] in H. destruct (batched_gather _ _) as [v|e]; [|discriminate]. cbn [bind] in H.
  destruct (ffbs_loop trans cat (S r) n b rest v) as [m|e] eqn:E; [|discriminate]. injection H as <-. cbn [length]. rewrite (IH _ _ _ E). reflexivity.
Qed.
Lemma ffbs_length {X} resample trans cat r n b (states : list (corr X)) out : smooth resample trans cat r n b states "ffbs" = Ok out -> length out = length states.
Proof.
  change (smooth resample trans cat r n b states "ffbs") with (do_sample_ffbs resample trans cat r n b states). unfold do_sample_ffbs. intros H.
  rewrite <- (rev_length states). destruct (rev states) as [|s rest]; [discriminate|].
  destruct (resample _ _) as [i|e]; [|discriminate]. cbn [bind] in H. destruct (batched_gather _ _) as [v|e]; [|discriminate]. cbn [bind] in H.
  destruct (ffbs_loop trans cat (S r) n b rest v) as [m|e] eqn:E; [|discriminate]. injection H as <-. rewrite app_length, rev_length || rewrite rev_length. cbn [length].
  rewrite (ffbs_loop_length _ _ _ _ _ _ _ _ E). lia.
Qed.

Lemma sb_one n : sum_below n (fun _ => 1%R) = INR n.
Proof. unfold sum_below. rewrite <- (seq_length n 0) at 2. induction (seq 0 n) as [|k l IH]; [reflexivity|]. cbn [map length]. rewrite S_INR, <- IH. unfold Rsum. cbn [fold_right]. ring. Qed.

Lemma target_mean {X Y} li lh (lo : nat -> X -> Y -> R) n j (Hn : 0 < n) (d : X) resample trans cat r b prior states ys out : ys <> [] ->
  length states = S (length ys) -> (forall t s, nth_error states t = Some s -> ts_time (c_x s) = t) -> do_sample_ffbs resample trans cat r n b states = Ok out -> length out = length states ->
  gradient_target (fun x => Fin (li x)) (fun t x x' => Fin (lh t x x')) (fun t x y => Fin (lo t x y)) n j resample trans cat r b (Fin prior) states ys =
  Ok (Fin (/ INR n * sum_below n (fun i => complete li lh lo 1 d (map (fun m => m_get m i j) out) ys) + prior)).
Proof.
  intros Hy Hl Ht E Lo. unfold gradient_target. change (smooth resample trans cat r n b states "ffbs") with (do_sample_ffbs resample trans cat r n b states). rewrite E. cbn [bind].
  assert (Et : map (fun s => ts_time (c_x s)) states = seq 0 (length out)).
  { rewrite Lo. apply (nth_ext _ _ 0 0); [now rewrite map_length, seq_length|]. rewrite map_length. intros t H. rewrite seq_nth by exact H.
    destruct (nth_error states t) as [s|] eqn:Es; [|apply nth_error_None in Es; lia]. erewrite (nth_map' (fun s => ts_time (c_x s)) states t 0 s) by exact H.
    erewrite nth_error_nth by exact Es. exact (Ht t s Es). }
  destruct states as [|s states'] eqn:Est; [discriminate|]. rewrite <- Est in *. rewrite (Ht 0 s) by (now rewrite Est). rewrite Et.
  apply (likelihood_mean li lh lo n j Hn d prior out ys Hy). congruence.
Qed.
