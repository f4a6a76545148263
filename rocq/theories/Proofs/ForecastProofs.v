(** The error of forecasts, averaged over the draws. *)
From Coq Require Import Reals List Bool Arith Lia Lra.
From Coquelicot Require Import Rcomplements.
From Verif.Model Require Import Base Xf Tensor Weights Particle FilterLoop Forecast.
From Verif.Spec Require Import WeightsSpec ResamplingSpec ParticleSpec LoopSpec UnbiasedSpec FairSpec ConvergeSpec AuxiliarySpec ForecastSpec.
From Verif.Proofs Require Import WeightsProofs MomentsProofs ResamplingProofs ParticleProofs StepProofs UnbiasedProofs UnbiasedFilter ConvergeProofs ConvergeFilter ConvergeAny.
Import ListNotations.
Local Open Scope nat_scope.

Section Compose.
  Context {U D : Type} (LU : law U) (LD : law D).
  (** Bounds over consecutive stretches of the stream. *)
  Lemma over_most_app k2 k1 : forall r F f w c, possible LU LD w -> at_most_over LU LD k1 r F w c ->
    (forall w', possible LU LD w' -> agree r w w' -> at_most_over LU LD k2 (r + k1) f w' (F w')) -> at_most_over LU LD (k1 + k2) r f w c.
  Proof.
    induction k1 as [|k1 IH]; intros r F f w c Hw HF Hf.
    - cbn [Nat.add at_most_over] in *. specialize (Hf w Hw ltac:(intros i Hi; reflexivity)). rewrite Nat.add_0_r in Hf.
      now apply (over_most_weaken LU LD k2 r f f w (F w) c (fun _ _ => Rle_refl _) HF).
    - destruct HF as (F1 & F2 & H1 & H2 & H3). exists F1, F2. split; [|split; assumption].
      intros u d Hu Hd. apply (IH (S r) F f (put w r (u, d)) (F1 u d)); [now apply possible_put|now apply H1|].
      intros w' Hw' Ha. apply agree_put in Ha. replace (S r + k1) with (r + S k1) by lia. apply Hf; [exact Hw'|apply Ha].
  Qed.
  (** Something that is never below [v] is not on average below [v]. *)
  Lemma at_most_least {A} (L : law A) (OK : law_ok L) (Pos : law_pos L) f c v : (forall a, supp L a -> (v <= f a)%R) -> at_most L f c -> (v <= c)%R.
  Proof.
    intros Hv (g & m & Hg & Hm & Hc). apply Rle_trans with m; [|exact Hc].
    apply (averages_le L OK Pos (fun _ => v) g v m (law_const L OK v) Hm). intros a Ha. specialize (Hv a Ha). specialize (Hg a Ha). lra.
  Qed.
  Lemma over_most_least (HU : law_ok LU) (HD : law_ok LD) (PU : law_pos LU) (PD : law_pos LD) k : forall r f w c v, possible LU LD w ->
    (forall w', possible LU LD w' -> (v <= f w')%R) -> at_most_over LU LD k r f w c -> (v <= c)%R.
  Proof.
    induction k as [|k IH]; intros r f w c v Hw Hv H; cbn [at_most_over] in H; [specialize (Hv w Hw); lra|]. destruct H as (F & G & H1 & H2 & H3).
    apply (at_most_least LU HU PU G); [|exact H3]. intros u Hu. apply (at_most_least LD HD PD (F u)); [|now apply H2].
    intros d Hd. apply (IH (S r) f (put w r (u, d)) (F u d)); [now apply possible_put|exact Hv|now apply H1].
  Qed.
End Compose.

Section Run.
  Context {X U D : Type} (lowest : R) (LU : law (nat -> U)) (LD : law (nat -> D)) (HU : law_ok LU) (HD : law_ok LD) (PD : law_pos LD).
  Variable C : @chances X U D.
  Variables (fr : bool -> U -> list xf -> list nat) (fp : D -> nat -> list X -> list X)
    (fx : D -> list xf -> nat -> list X -> list xf -> list xf -> list X)
    (fw : D -> list xf -> nat -> list X -> list xf -> list xf -> list xf)
    (fg : nat -> list xf -> nat -> list X -> list xf).
  Variables (good : X -> Prop) (usable : list xf -> Prop).
  Hypothesis Hsep : separate LU LD C good usable fr fp fx fw fg.
  Variables (n b j : nat).
  Hypothesis Hn : 0 < n.
  Hypothesis Hj : j < b.
  Variables (kappa G : R).
  Hypothesis Hkappa : (0 <= kappa)%R.
  Hypothesis HG : (1 <= G)%R.
  Variables (move : nat -> option (list xf) -> (X -> R) -> X -> R) (movable : nat -> option (list xf) -> (X -> R) -> Prop).
  Hypothesis Hmove : fair_moves LD good n j move movable fp fx fw.
  Hypothesis Hsteady : steady_moves LD good usable G n j move movable fp fx fw.
  Variable dflt : X.
  Notation O := (at_stream C).
  Notation sok := (sok good n b).
  Notation pok := (pok lowest good n b).
  Notation sq := (sq lowest n j).
  Notation pq := (pq lowest n j).
  Notation bounded f B := (forall x, good x -> (Rabs (f x) <= B)%R).
  Notation possible := (possible LU LD).

  (** * The forecast *)
  (** A step without observation does not enlarge bounds. *)
  Lemma drift_bound (w0 : filter_stream U D) t f B : movable t None f -> bounded f B -> bounded (move t None f) B.
  Proof.
    intros Hm HB x Hx. set (xm := TS t (Mat n (S j) (fun _ _ => x))).
    set (xs := col (ts_val xm) j).
    assert (Lx : length xs = n) by apply length_col.
    assert (Gx : Forall good xs) by (apply Forall_forall; intros z Hz; apply in_col in Hz; destruct Hz as (i & _ & <-); exact Hx).
    assert (Ex : nth 0 xs dflt = x) by (unfold xs; rewrite nth_col by exact Hn; reflexivity).
    rewrite <- Ex. apply (averages_bound LD HD PD _ _ B (proj1 Hmove t xs 0 f dflt Lx Gx Hn Hm)). intros d Hd. apply HB.
    pose proof (sep_walk_good _ _ _ _ _ _ _ _ _ _ Hsep d j t xs Hd Gx) as G1.
    destruct (sep_walk _ _ _ _ _ _ _ _ _ _ Hsep d Hd xm) as (_ & [L1 L2] & Hc). specialize (Hc j ltac:(cbn; lia)). fold xs in Hc. cbn [xm ts_time] in Hc.
    apply (proj1 (Forall_forall _ _) G1), nth_In. rewrite <- Hc, length_col, L1. exact Hn.
  Qed.
  Lemma drifts_bound (w0 : filter_stream U D) m : forall t f B, hoppable move movable m t f -> bounded f B -> bounded (hops move m t f) B.
  Proof. induction m as [|m IH]; intros t f B Hh HB; cbn [hops]; [exact HB|]. destruct Hh as [H1 H2]. apply (drift_bound w0); [exact H1|]. now apply IH. Qed.

  Lemma walk_state d x : supp LD d -> shaped (ts_val x) n b -> entries good (ts_val x) ->
    let x' := walk C d x in ts_time x' = S (ts_time x) /\ shaped (ts_val x') n b /\ entries good (ts_val x') /\ col (ts_val x') j = fp (d j) (ts_time x) (col (ts_val x) j).
  Proof.
    intros Hd [Hx1 Hx2] Hg x'. destruct (sep_walk _ _ _ _ _ _ _ _ _ _ Hsep d Hd x) as (T & [S1 S2] & Hcol). split; [exact T|]. split; [unfold x'; split; lia|]. split.
    - apply (fin_cols n b j Hn Hj). intros q Hq. unfold x'. rewrite Hcol by (unfold x' in Hq; lia). apply (sep_walk_good _ _ _ _ _ _ _ _ _ _ Hsep); [exact Hd|]. apply good_col; [exact Hg|unfold x' in Hq; lia].
    - apply Hcol. lia.
  Qed.

  (** The value after [m] steps from [x]. *)
  Fixpoint after (o : @oracle X (list xf)) (r m : nat) (x : tstate X) : tstate X := match m with 0 => x | S m => after o (S r) m (propagate o r x) end.
  Lemma path_after (o : @oracle X (list xf)) i : forall r m x, i < m -> nth_error (sample_states o r m x) i = Some (after o r (S i) x).
  Proof.
    induction i as [|i IH]; intros r [|m] x Hi; try lia; cbn [sample_states nth_error]; [reflexivity|]. rewrite IH by lia. reflexivity.
  Qed.
  Lemma after_state w m : forall r x, possible w -> shaped (ts_val x) n b -> entries good (ts_val x) ->
    let x' := after (O w) r m x in ts_time x' = ts_time x + m /\ shaped (ts_val x') n b /\ entries good (ts_val x').
  Proof.
    induction m as [|m IH]; intros r x Hw Hx Hg; cbn [after]; [split; [lia|now split]|].
    destruct (walk_state (snd (w r)) x (proj2 (Hw r)) Hx Hg) as (T & S' & G' & _). cbn [at_stream propagate].
    destruct (IH (S r) _ Hw S' G') as (T2 & S2 & G2). split; [|split; assumption]. rewrite T2, T. lia.
  Qed.
  Lemma after_local w w' m : forall r x, (forall i, r <= i -> w' i = w i) -> after (O w') r m x = after (O w) r m x.
  Proof.
    induction m as [|m IH]; intros r x Hw; cbn [after]; [reflexivity|]. cbn [at_stream propagate]. rewrite (Hw r) by lia. apply IH. intros i Hi. apply Hw. lia.
  Qed.

  Notation mean_of a x f := (sumto n (fun i => a i * f (m_get (ts_val x) i j))%R).
  (** Simulating [m] steps: the error of a weighted sum. *)
  Lemma after_error (a : nat -> R) phi B m : bounded phi B -> forall k r w x, m <= k -> shaped (ts_val x) n b -> entries good (ts_val x) -> hoppable move movable m (ts_time x) phi ->
    at_most_over LU LD k r (fun w' => square (mean_of a (after (O w') r m x) phi - mean_of a x (hops move m (ts_time x) phi)))%R w
      (INR m * INR m * (sumto n (fun i => square (a i)) * square B))%R.
  Proof.
    intros HB. set (q := (sumto n (fun i => square (a i)) * square B)%R).
    induction m as [|m IH]; intros k r w x Hk Hx Hg Hh.
    - apply over_most_const; [exact HU|exact HD|]. intros w' _. cbn [after hops INR]. right. unfold square. ring.
    - destruct k as [|k]; [lia|]. destruct Hh as [Hh1 Hh2]. set (t := ts_time x) in *. set (h := hops move m (S t) phi) in *.
      pose (e d := (mean_of a (walk C d x) h - mean_of a x (move t None h))%R).
      set (am := match m with 0 => 0%R | S _ => ((INR m + 1) / INR m)%R end).
      assert (Am : (0 <= am)%R /\ (am * (INR m * INR m) = INR m * (INR m + 1))%R).
      { unfold am. destruct m as [|m']; [cbn [INR]; lra|]. assert (0 < INR (S m'))%R by (apply lt_0_INR; lia). split; [apply Rlt_le, Rdiv_lt_0_compat; lra|field; lra]. }
      exists (fun _ d => am * (INR m * INR m * q) + (1 + INR m) * square (e d))%R, (fun _ => am * (INR m * INR m * q) + (1 + INR m) * q)%R.
      pose proof (pos_INR m) as Hm0. split; [|split].
      + intros u d Hu Hd. set (w1 := put w r (u, d)). destruct (walk_state d x Hd Hx Hg) as (T & S' & G' & _). fold t in T.
        pose proof (IH k (S r) w1 (walk C d x) ltac:(lia) S' G' ltac:(rewrite T; exact Hh2)) as Q. rewrite T in Q. fold h in Q.
        pose proof (over_most_lin LU LD HU HD k (S r) _ (fun _ => square (e d)) w1 _ (square (e d)) am (1 + INR m) (proj1 Am) ltac:(lra) Q
          ltac:(apply over_most_const; [exact HU|exact HD|intros; lra])) as Q2.
        refine (over_most_weaken LU LD k (S r) _ _ w1 _ _ _ (Rle_refl _) Q2). intros w' Ha. apply agree_put in Ha. destruct Ha as [E1 _].
        cbn [after hops]. cbn [at_stream propagate]. fold t h. rewrite E1. cbn [snd]. cbn beta.
        set (e1 := (mean_of a (after (at_stream C w') (S r) m (walk C d x)) phi - mean_of a (walk C d x) h)%R).
        match goal with |- (square ?z <= _)%R => replace z with (e1 + e d)%R by (unfold e1, e; ring) end.
        unfold am. destruct m as [|m'].
        * assert (E0 : e1 = 0%R) by (unfold e1, h; cbn [after hops]; ring). rewrite E0. unfold square. cbn [INR]. lra.
        * assert (P : (0 < INR (S m'))%R) by (apply lt_0_INR; lia). set (z := INR (S m')) in *.
          assert (E : ((z + 1) / z * square e1 + (1 + z) * square (e d) - square (e1 + e d) = square (e1 - z * e d) / z)%R) by (unfold square; field; lra).
          assert (0 <= square (e1 - z * e d) / z)%R by (apply Rmult_le_pos; [apply square_nonneg|left; now apply Rinv_0_lt_compat]). lra.
      + intros u Hu. destruct Hx as [Hx1 Hx2]. set (xs := col (ts_val x) j). assert (Lx : length xs = n) by (unfold xs; now rewrite length_col).
        assert (Gx : Forall good xs) by (unfold xs; apply good_col; [exact Hg|lia]).
        assert (Hhb : bounded h B) by (intros z Hz; unfold h; apply (drifts_bound w m (S t) phi B Hh2 HB z Hz)).
        pose proof (steady_walk _ _ _ _ _ _ _ _ _ _ _ Hsteady t xs h B a dflt Lx Gx Hh1 Hhb) as Q.
        change (sum_below n (fun i => square (a i)) * square B)%R with q in Q.
        pose proof (at_most_affine LD HD (1 + INR m) (am * (INR m * INR m * q)) _ _ ltac:(lra) Q) as Q2.
        refine (at_most_weaken LD _ _ _ _ _ Q2 _); [|lra]. intros d Hd. rewrite Rplus_comm. right. f_equal. f_equal. f_equal. unfold e.
        destruct (walk_state d x Hd (conj Hx1 Hx2) Hg) as (T & [S1 S2] & G' & Ec). f_equal; apply (sumto_ext n); intros i Hi; do 2 f_equal.
        * rewrite <- (nth_col (ts_val (walk C d x)) i j dflt) by lia. now rewrite Ec.
        * unfold xs. now rewrite nth_col by lia.
      + refine (at_most_weaken LU _ (fun _ => am * (INR m * INR m * q) + (1 + INR m) * q)%R _ _ (fun _ _ => Rle_refl _) (at_most_const LU HU _) _).
        right. rewrite <- (Rmult_assoc am), (proj2 Am), S_INR. ring.
  Qed.

  (** * The run before it *)
  Variables (P H : R) (ahead : list xf -> nat -> X -> R).
  Variable kd : kind.
  Hypothesis Hkd : (exists thr, kd = SISR thr /\ steady_resampling LU kappa n b fr) \/
    (kd = APF /\ looks LU LD fr fx fw fg good usable n b j kappa G move movable P H ahead).
  Variable cf : fconf.
  Hypothesis Hevery : observe_every cf <> 0.
  Notation every := (observe_every cf).
  Variables (phi : X -> R) (B0 : R).
  Hypothesis HB0 : (0 <= B0)%R.
  Hypothesis Hphi : bounded phi B0.
  Notation expd := (expected move every phi).
  Notation most := (most G B0).

  Lemma predict_fact w r s : possible w -> sok s -> exists p, predict lowest (O w) kd r s = Ok p /\ pok p /\ (pq p <= sq s)%R /\ ts_time (p_x p) = ts_time (c_x s).
  Proof.
    intros Hw Hs. destruct (predict_any lowest LU LD HU C fr fp fx fw fg good usable Hsep n b j Hn Hj kappa G Hkappa move movable dflt P H ahead kd Hkd r s (fun _ => 0%R) 0 Hs) as (F & _ & Q).
    { intros. rewrite Rabs_R0. lra. }
    destruct (Q w (proj1 (Hw r))) as (p & E & Hp & Hq & T & _). now exists p.
  Qed.
  Lemma create_fact w r p f B : possible w -> pok p -> movable (ts_time (p_x p)) None f -> bounded f B ->
    exists c, create_state lowest (O w) r p = Ok c /\ sok c /\ ts_time (c_x c) = S (ts_time (p_x p)) /\ (sq c <= square G * pq p)%R.
  Proof.
    intros Hw Hp Hm HB. destruct (create_any lowest LU LD HU C fr fp fx fw fg good usable Hsep n b j Hn Hj kappa G Hkappa HG move movable Hsteady dflt p f B Hp Hm HB) as (Fa & Fb & _ & _ & Q).
    destruct (Q w r (proj1 (Hw r)) (proj2 (Hw r))) as (c & E & Hc & T & L & _). exists c. split; [exact E|]. split; [exact Hc|]. split; [exact T|].
    rewrite (create_ll lowest j _ _ _ _ E) in L. cbn [real_of] in L. rewrite exp_0 in L. unfold square at 1 in L. lra.
  Qed.
  Lemma settle_fact w r y p f B : possible w -> (seen y <> None -> usable y) -> pok p -> movable (ts_time (p_x p)) (seen y) f -> (0 <= B)%R -> bounded f B ->
    exists c, settle lowest kd (O w) r y p = Ok c /\ sok c /\ ts_time (c_x c) = S (ts_time (p_x p)) /\ (square (exp (real_of (c_ll c j))) * sq c <= square G * pq p)%R.
  Proof.
    intros Hw Hy Hp Hm HB0' HB.
    destruct (settle_any lowest LU LD HU HD PD C fr fp fx fw fg good usable Hsep n b j Hn Hj kappa G Hkappa HG move movable Hmove Hsteady dflt P H ahead kd Hkd w y p f B Hy Hp Hm HB0' HB) as (Fa & Fb & _ & _ & Q).
    destruct (Q w r (proj1 (Hw r)) (proj2 (Hw r))) as (c & E & Hc & T & L & _). now exists c.
  Qed.
  Lemma sq_pos s : sok s -> (0 <= sq s)%R.
  Proof. intros Hs. pose proof (sq_least lowest good n b j Hn Hj s Hs). assert (0 < / INR n)%R by apply Rinv_0_lt_compat, (n_pos n Hn). lra. Qed.
  Lemma pq_pos p : pok p -> (0 <= pq p)%R.
  Proof. intros Hp. pose proof (pq_least lowest good n b j Hn Hj p Hp). assert (0 < / INR n)%R by apply Rinv_0_lt_compat, (n_pos n Hn). lra. Qed.
  Lemma G2 : (1 <= square G)%R.
  Proof. unfold square. nra. Qed.
  Notation bound_hops := (bound_hops LU LD HD PD C fr fp fx fw fg good usable Hsep n b j Hn Hj G HG move movable Hmove Hsteady dflt B0 HB0).
  Notation bound_move := (bound_move LU LD HD PD C fr fp fx fw fg good usable Hsep n b j Hn Hj G HG move movable Hmove Hsteady dflt).
  Notation bound_all := (bound_all LU LD HD PD C fr fp fx fw fg good usable Hsep n b j Hn Hj G HG move movable Hmove Hsteady dflt cf Hevery phi B0 HB0 Hphi).

  (** The [while] loop: where it ends, in time, stream and effective sample size, and what it reads. *)
  Lemma advance_fact w m : possible w -> forall f1 r p g K, until every (ts_time (p_x p)) = m -> m < f1 -> pok p ->
    hoppable move movable m (ts_time (p_x p)) g -> bounded g (most K) ->
    exists q l, advance lowest (O w) kd cf f1 r p = Some (Ok (q, r + 2 * m, l)) /\ pok q /\ ts_time (p_x q) = ts_time (p_x p) + m /\ (pq q <= square G ^ m * pq p)%R /\
      forall w', (forall i, r <= i < r + 2 * m -> w' i = w i) -> advance lowest (O w') kd cf f1 r p = Some (Ok (q, r + 2 * m, l)).
  Proof.
    intros Hw. induction m as [|m IH]; intros f1 r p g K Hu Hf1 Hp Hh Hg; destruct f1 as [|f1]; try lia.
    - apply (until_0 n b j Hn Hj cf Hevery) in Hu. exists p, []. cbn [advance]. rewrite Hu. destruct (Nat.eqb_spec every 0); [contradiction|]. cbn [Nat.eqb]. replace (2 * 0) with 0 by reflexivity.
      replace (r + 0) with r by lia. split; [reflexivity|]. split; [exact Hp|]. split; [lia|]. split; [cbn [pow]; lra|reflexivity].
    - destruct (until_S n b j Hn Hj cf Hevery _ _ Hu) as [Hmod Hu1]. destruct Hh as [Hh1 Hh2].
      destruct (create_fact w r p _ (most (m + K)) Hw Hp Hh1 (bound_hops w m _ g K Hh2 Hg)) as (c & Ec & Hc & Tc & Lc).
      destruct (predict_fact w (S r) c Hw Hc) as (p' & Ep & Hp' & Lp & Tp).
      assert (T : ts_time (p_x p') = S (ts_time (p_x p))) by congruence.
      destruct (IH f1 (S (S r)) p' g K ltac:(rewrite T; exact Hu1) ltac:(lia) Hp' ltac:(rewrite T; exact Hh2) Hg) as (q & l & Ea & Hq & Tq & Lq & Hloc).
      replace (S (S r) + 2 * m) with (r + 2 * S m) in * by lia.
      exists q, (c :: l). split; [|split; [exact Hq|split; [rewrite Tq, T; lia|split]]].
      + cbn [advance]. destruct (Nat.eqb_spec every 0); [contradiction|]. destruct (Nat.eqb_spec (ts_time (p_x p) mod every) 0); [contradiction|]. now rewrite Ec, Ep, Ea.
      + cbn [pow]. apply Rle_trans with (1 := Lq). rewrite (Rmult_comm (square G)), Rmult_assoc. apply Rmult_le_compat_l; [apply pow_le, square_nonneg|lra].
      + intros w' Hw'. cbn [advance]. destruct (Nat.eqb_spec every 0); [contradiction|]. destruct (Nat.eqb_spec (ts_time (p_x p) mod every) 0); [contradiction|].
        rewrite (create_local lowest C r p w w') by (apply Hw'; lia). rewrite Ec. rewrite (predict_local lowest C kd (S r) c w w') by (apply Hw'; lia). rewrite Ep.
        rewrite Hloc; [reflexivity|]. intros i Hi. apply Hw'. lia.
  Qed.

  Lemma run_fact w ys : possible w -> Forall (fun y => seen y <> None -> usable y) ys -> forall f r s, every <= f -> sok s ->
    let t := ts_time (c_x s) in let ys' := map seen ys in has_expected move movable every phi t ys' ->
    exists c l, batch_filter lowest (O w) kd cf f r ys s = Some (Ok (c, r + draws every t ys', l)) /\ sok c /\ ts_time (c_x c) = t + steps every t ys' /\
      (square (exp (Rsum (map (fun c => real_of (c_ll c j)) l))) * sq c <= square G ^ steps every t ys' * sq s)%R /\
      forall w', (forall i, r <= i < r + draws every t ys' -> w' i = w i) -> batch_filter lowest (O w') kd cf f r ys s = Some (Ok (c, r + draws every t ys', l)).
  Proof.
    intros Hw. induction ys as [|y ys IH]; intros Hys f r s Hf Hs t ys' He.
    - exists s, []. cbn [batch_filter ys' map draws steps]. rewrite !Nat.add_0_r. split; [reflexivity|]. split; [exact Hs|]. split; [reflexivity|].
      split; [|reflexivity]. cbn [map pow]. unfold Rsum. cbn [fold_right]. rewrite exp_0. unfold square. lra.
    - inversion_clear Hys as [|? ? Hy Hys']. unfold ys' in *. cbn [map has_expected draws steps] in *. destruct He as (Hh & Hm & He).
      set (m := until every t) in *. set (h := expd (S (t + m)) (map seen ys)) in *. set (K := steps every (S (t + m)) (map seen ys)).
      destruct (predict_fact w r s Hw Hs) as (p & Ep & Hp & Lp & Tp). fold t in Tp.
      assert (Bh : bounded h (most K)) by (now apply (bound_all w)).
      assert (Hmost : (0 <= most K)%R) by (apply most_pos; assumption).
      assert (Bg : bounded (move (t + m) (seen y) h) (most (S K))).
      { rewrite most_S. apply (bound_move w); [now apply seen_used|exact Hm|exact Hmost|exact Bh]. }
      destruct (advance_fact w m Hw f (S r) p (move (t + m) (seen y) h) (S K) ltac:(rewrite Tp; reflexivity)
        ltac:(pose proof (until_small cf Hevery t); unfold m; lia) Hp ltac:(rewrite Tp; exact Hh) Bg) as (q & l1 & Ea & Hq & Tq & Lq & La). rewrite Tp in Tq.
      destruct (settle_fact w (S r + 2 * m) y q h (most K) Hw Hy Hq ltac:(rewrite Tq; exact Hm) Hmost Bh) as (c & Es & Hc & Tc & Lc). rewrite Tq in Tc.
      destruct (IH Hys' f (S (S r + 2 * m)) c Hf Hc ltac:(rewrite Tc; exact He)) as (c' & l2 & Eb & Hc' & Tc' & Lb & Lob). rewrite Tc in *.
      replace (S (S r + 2 * m) + draws every (S (t + m)) (map seen ys)) with (r + (2 * m + 2 + draws every (S (t + m)) (map seen ys))) in * by lia.
      eexists c', _. split; [|split; [exact Hc'|split; [rewrite Tc'; lia|split]]].
      + cbn [batch_filter]. unfold filter_step. rewrite Ep, Ea.
        change (if missing y then create_state lowest (O w) (S r + 2 * m) q else correct lowest (O w) kd (S r + 2 * m) y q) with (settle lowest kd (O w) (S r + 2 * m) y q).
        rewrite Es, Eb. reflexivity.
      + rewrite !map_app, !Rsum_app. cbn [map].
        assert (E : Rsum (map (fun c => real_of (c_ll c j)) (if record_intermediary cf then l1 else [])) = 0%R) by (destruct (record_intermediary cf); [eapply advance_ll; eassumption|reflexivity]).
        rewrite E. unfold Rsum at 1. cbn [fold_right]. rewrite Rplus_0_l, Rplus_0_r, exp_plus.
        set (e1 := exp (real_of (c_ll c j))) in *. set (e2 := exp (Rsum _)) in *. fold K in Lb.
        replace (square (e1 * e2) * sq c')%R with (square e1 * (square e2 * sq c'))%R by (unfold square; ring).
        replace (m + 1 + K) with (K + S m) by lia. rewrite pow_add. set (g := square G) in *.
        assert (Pk : (0 <= g ^ K)%R) by apply pow_le, square_nonneg.
        apply Rle_trans with (square e1 * (g ^ K * sq c))%R; [apply Rmult_le_compat_l; [apply square_nonneg|exact Lb]|].
        replace (square e1 * (g ^ K * sq c))%R with (g ^ K * (square e1 * sq c))%R by ring. rewrite Rmult_assoc. apply Rmult_le_compat_l; [exact Pk|].
        apply Rle_trans with (1 := Lc). cbn [pow]. rewrite Rmult_assoc. apply Rmult_le_compat_l; [apply square_nonneg|].
        apply Rle_trans with (1 := Lq). apply Rmult_le_compat_l; [apply pow_le, square_nonneg|exact Lp].
      + intros w' Hw'. cbn [batch_filter]. unfold filter_step. rewrite (predict_local lowest C kd r s w w') by (apply Hw'; lia). rewrite Ep.
        rewrite La by (intros i Hi; apply Hw'; lia).
        change (if missing y then create_state lowest (O w') (S r + 2 * m) q else correct lowest (O w') kd (S r + 2 * m) y q) with (settle lowest kd (O w') (S r + 2 * m) y q).
        rewrite (settle_local lowest C kd (S r + 2 * m) y q w w') by (apply Hw'; lia). rewrite Es. rewrite Lob; [reflexivity|]. intros i Hi. apply Hw'. lia.
  Qed.
End Run.
