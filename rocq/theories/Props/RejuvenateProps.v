(** Property C108 (pyfilter/inference/sequential/kernels/mh.py, smc2.py): rejuvenating leaves the target in place. *)
From Coq Require Import Reals List Bool Arith Lia Lra.
From Verif.Model Require Import Base Xf Weights Pmmh Sequential.
From Verif.Spec Require Import WeightsSpec ResamplingSpec PmmhSpec SequentialSpec UnbiasedSpec StationarySpec ProperSpec RejuvenateSpec.
From Verif.Proofs Require Import WeightsProofs SequentialProofs UnbiasedProofs UnbiasedFilter StationaryProofs.
From Verif.Props Require Import PmmhProps SequentialProps SequentialMoves SequentialWeights StationaryProps ProperProps.
From Verif.Model Require Import Resampling.
From Verif.Props Require ResamplingProps ResampleMeanProps.
Import ListNotations.
Local Open Scope nat_scope.

(** A ratio with proposal densities is one without, with the densities taken out of the prior. *)
Lemma ratio_honest {T F} (ll : F -> xf) (lp : T -> xf) (lq : T -> R) t t' f f' :
  log_ratio ll lp t' t f' f (Fin (lq t)) (Fin (lq t')) = log_ratio ll (fun t => xsub (lp t) (Fin (lq t))) t' t f' f (Fin 0) (Fin 0).
Proof.
  unfold log_ratio. destruct (lp t'), (lp t); cbn [xsub xopp xadd]; try reflexivity; destruct (ll f'), (ll f); cbn [xsub xopp xadd]; try reflexivity.
  f_equal. ring.
Qed.

Section Moves.
  Context {T F Y K U D : Type} (E : U -> @stream D (list R) -> env T F Y K) (LU : law U) (L : law D) (HL : law_ok L)
    (pick : U -> list xf -> list nat) (cand : D -> nat -> T) (filt : D -> nat -> T -> F * xf) (B np r0 : nat) (data : list Y) (lp : T -> xf) (lq : T -> R).
  Context (UD : uses_draws E pick cand filt B np r0 data lp lq).
  Notation n_data := (List.length data).
  Notation pos i := (r0 + 2 + i * (3 + n_data)).
  Definition runs (d : D) (rows : list T) : list (F * xf) := map (fun p => filt d (fst p) (snd p)) (combine (seq 0 B) rows).
  Lemma runs_ok d : run_ok B (runs d) (filt d).
  Proof.
    intros rows Lr. unfold runs. split; [rewrite map_length, combine_length, seq_length; lia|]. intros b t Hb. rewrite nth_error_map.
    assert (b < B) by (rewrite <- Lr; apply nth_error_Some; congruence).
    rewrite (combine_nth_error _ _ b b t); [reflexivity| |exact Hb]. rewrite (nth_error_nth' _ 0) by now rewrite seq_length. now rewrite seq_nth.
  Qed.
  Lemma batch_runs u w i rows : List.length rows = B -> batch_filter (E u w) (pos i + 1) np rows rows data = runs (fst (w i)) rows.
  Proof.
    intros Lr. destruct (runs_ok (fst (w i)) rows Lr) as [L1 N1]. assert (L2 : List.length (batch_filter (E u w) (pos i + 1) np rows rows data) = B).
    { pose proof (batch_len (E u w) (pos i + 1) np rows rows data) as Q. rewrite (ud_size _ _ _ _ _ _ _ _ _ _ UD) in Q. now apply Q. }
    apply list_ext. intros b. destruct (nth_error rows b) as [t|] eqn:Et.
    - rewrite (N1 b t Et), (batch_nth (E u w) _ _ _ _ b t Et), (ud_filters _ _ _ _ _ _ _ _ _ _ UD). reflexivity.
    - apply nth_error_None in Et. rewrite !(proj2 (nth_error_None _ b)) by lia. reflexivity.
  Qed.

  (** One move, as a function of its draws. *)
  Definition rv (d : D) : list T := map (cand d) (seq 0 B).
  Definition move (d : D) (u : list R) (ctx : list T) (fs : list (F * xf)) : @chains T (F * xf) unit * list bool :=
    run_pmmh snd lp (fun _ _ _ => tt) (fun _ rows => map (fun t => Fin (lq t)) rows) (fun k _ _ => k) (rv d) (runs d) [] u false (Chains ctx fs tt).
  Lemma rv_len d : List.length (rv d) = B. Proof. unfold rv. now rewrite map_length, seq_length. Qed.
  Lemma rv_nth d b : b < B -> nth_error (rv d) b = Some (cand d b).
  Proof. intros Hb. unfold rv. now apply nth_error_seq_map. Qed.
  Lemma pmmh_move u w i k wts ctx fs : let E := E u w in
    let r := run_pmmh snd (e_log_prior E) (e_build E) (e_log_prob E) (e_exchange E) (e_sample E (pos i) k) (fun rows => batch_filter E (pos i + 1) np rows rows data) wts
               (e_uniforms E (pos i + 2 + n_data)) false (Chains ctx fs k) in
    positions (fst r) = positions (fst (move (fst (w i)) (snd (w i)) ctx fs)) /\ results (fst r) = results (fst (move (fst (w i)) (snd (w i)) ctx fs)) /\
    snd r = snd (move (fst (w i)) (snd (w i)) ctx fs).
  Proof.
    cbv zeta. unfold move, run_pmmh. cbn [fst snd positions results kern]. rewrite !(ud_density _ _ _ _ _ _ _ _ _ _ UD), (ud_candidates _ _ _ _ _ _ _ _ _ _ UD), (ud_uniforms _ _ _ _ _ _ _ _ _ _ UD).
    rewrite !(map_ext (e_log_prior (E u w)) lp) by (intros; apply (ud_prior _ _ _ _ _ _ _ _ _ _ UD)). fold (rv (fst (w i))). rewrite (batch_runs u w i (rv (fst (w i))) (rv_len _)). split; [|split]; reflexivity.
  Qed.

  Context (b : nat) (Hb : b < B) (M : measure (T * (F * xf))).
  Notation onto_b := (proposed cand filt b).
  Notation height := (target lp lq).
  Context (Hclosed : forall d z, supp L d -> among M z -> among M (onto_b d z)).
  Context (Hproper : forall z, among M z -> proper (lp (fst z)) /\ proper (snd (snd z))).
  Lemma move_chain d u ctx fs z : supp L d -> supp (uniforms B) u -> List.length ctx = B -> List.length fs = B -> nth_error ctx b = Some (fst z) -> nth_error fs b = Some (snd z) -> among M z ->
    let c' := fst (move d u ctx fs) in List.length (positions c') = B /\ List.length (results c') = B /\ 
    let z' := if Rlt_dec (nth b u 0%R) (chance (height (onto_b d z)) (height z)) then onto_b d z else z in
    nth_error (positions c') b = Some (fst z') /\ nth_error (results c') b = Some (snd z').
  Proof.
    intros Hd Hu L1 L2 N1 N2 Hz c'. destruct (uniforms_supp B u Hu) as [Lu Hv]. destruct (Hv b Hb) as (v & Ev & V). destruct (runs_ok d (rv d) (rv_len d)) as [R1 R2]. pose proof (R2 b _ (rv_nth d b Hb)) as R3.
    assert (LPo : log_prob_ok (fun (_ : unit) rows => map (fun t : T => Fin (lq t)) rows)) by (intros k rows; apply map_length).
    pose proof (accepted_len snd lp (fun _ _ _ => tt) _ (fun k _ _ => k) B LPo (rv d) (runs d) [] u false (Chains ctx fs tt) (conj L1 L2) (rv_len d) R1 Lu) as La.
    split; [|split].
    - unfold c', move. cbn [run_pmmh fst positions]. apply where_len; [exact La|apply rv_len|exact L1].
    - unfold c', move. cbn [run_pmmh fst results]. apply where_len; [exact La|exact R1|exact L2].
    - assert (Q1 : nth_error (map (fun t : T => Fin (lq t)) ctx) b = Some (Fin (lq (fst z)))) by now rewrite nth_error_map, N1.
      assert (Q2 : nth_error (map (fun t : T => Fin (lq t)) (rv d)) b = Some (Fin (lq (cand d b)))) by now rewrite nth_error_map, (rv_nth d b Hb).
      pose proof (accepted_nth snd lp (fun _ _ _ => tt) (fun (_ : unit) rows => map (fun t : T => Fin (lq t)) rows) (fun k _ _ => k) (rv d) (runs d) [] u false (Chains ctx fs tt) b _ _ _ _ (Fin (lq (fst z))) (Fin (lq (cand d b))) v
        (rv_nth d b Hb) N1 N2 R3 Q1 Q2 Ev) as Acc.
      rewrite ratio_honest in Acc. assert (Z' : among M (onto_b d z)) by now apply Hclosed. destruct (Hproper z Hz) as [P1 P2]. destruct (Hproper _ Z') as [P3 P4]. cbn [proposed fst snd] in P3, P4.
      rewrite ratio_chance in Acc; [|destruct (lp (fst z)); try contradiction; exact I|destruct (lp (cand d b)); try contradiction; exact I|exact P2|exact P4|exact V].
      rewrite (nth_error_nth _ _ 0%R Ev). unfold c', move. cbn [run_pmmh fst positions results].
      split; [refine (eq_trans (where_nth _ _ _ b _ _ _ Acc (rv_nth d b Hb) N1) _)|refine (eq_trans (where_nth _ _ _ b _ _ _ Acc R3 N2) _)];
        destruct z as [t f]; unfold target, proposed; cbn [fst snd]; destruct (Rlt_dec v _); reflexivity.
  Qed.

  Notation cand' := (fun d b (_ : T) => cand d b).
  Notation lp' := (fun t => xsub (lp t) (Fin (lq t))).
  Context (G : (T * (F * xf) -> T * (F * xf) -> R) -> Prop) (H : (T * (F * xf) -> R) -> Prop) (HH : testable M L onto_b height G H).
  (** The average of [h] after [n] moves of slot [b]. *)
  Definition after_moves (n : nat) (h : T * (F * xf) -> R) : T * (F * xf) -> R := onwards snd lp' b L cand' filt n h.
  Lemma after_test n h : H h -> H (after_moves n h).
  Proof. apply (onwards_test snd lp' b L M cand' filt G H HH). Qed.

  Variable c : smc2_cfg.
  Context (Hacc : (c_accept c <= 0)%R) (Hdist : c_dist c = None).
  Definition moved_slot (h : T * (F * xf) -> R) (x : list T * list (F * xf) * nat * list (list bool) * bool) : R :=
    let '(ctx, fs, _, _, _) := x in particle_value h ctx fs b.
  Lemma rate_nonneg acc i rate : (0 <= rate)%R -> (0 <= (accepted_fraction acc + INR i * rate) / INR (S i))%R.
  Proof.
    intros Hr. apply Rmult_le_pos.
    - apply Rplus_le_le_0_compat; [|apply Rmult_le_pos; [apply pos_INR|exact Hr]]. unfold accepted_fraction. destruct acc as [|a acc]; [cbn; unfold Rdiv; lra|]. apply Rmult_le_pos; [apply pos_INR|]. apply Rlt_le, Rinv_0_lt_compat, lt_0_INR. cbn. lia.
    - apply Rlt_le, Rinv_0_lt_compat, lt_0_INR. lia.
  Qed.
  Lemma moves_fixed u w n : forall i prev rate k old rnd ctx fs, (0 <= rate)%R -> snd (pmmh_moves (E u w) c np data k old n i rnd prev rate ctx fs) = false.
  Proof.
    induction n as [|n IH]; intros i prev rate k old rnd ctx fs Hr; [reflexivity|]. cbn [pmmh_moves]. destruct (run_pmmh snd _ _ _ _ _ _ _ _ _ _) as [ch acc]. rewrite Hdist.
    pose proof (rate_nonneg acc i rate Hr) as R. destruct (Rlt_dec _ (c_accept c)) as [C|_]; [lra|]. specialize (IH (S i) prev _ k old (rnd + 3 + n_data) (positions ch) (results ch) R).
    destruct (pmmh_moves _ _ _ _ _ _ n _ _ _ _ _ _) as [[[[x1 x2] x3] x4] x5]. exact IH.
  Qed.
  Lemma moves_onwards u h : H h -> forall n j i prev rate ctx fs z w (f : @stream D (list R) -> R),
    List.length ctx = B -> List.length fs = B -> nth_error ctx b = Some (fst z) -> nth_error fs b = Some (snd z) -> among M z -> (0 <= rate)%R ->
    (forall w', agree j w w' -> exists k old, f w' = moved_slot h (pmmh_moves (E u w') c np data k old n i (pos j) prev rate ctx fs)) ->
    averages_over L (uniforms B) n j f w (after_moves n h z).
  Proof.
    intros Hh n. induction n as [|n IH]; intros j i prev rate ctx fs z w f L1 L2 N1 N2 Hz Hr Hf.
    - split; [exact I|]. cbn [average]. destruct (Hf w) as (k & old & ->); [intros x Hx; reflexivity|]. cbn. unfold particle_value. rewrite N1, N2. now destruct z.
    - pose proof (after_test n h Hh) as Hg. set (g := after_moves n h) in *.
      apply (over_step L (uniforms B) HL (uniforms_law B) n j f w (fun d u => g (if Rlt_dec (nth b u 0%R) (chance (height (onto_b d z)) (height z)) then onto_b d z else z))
        (fun d => moved height g z (onto_b d z))).
      + intros d v Hd Hv. destruct (move_chain d v ctx fs z Hd Hv L1 L2 N1 N2 Hz) as (C1 & C2 & A1 & A2). set (z' := if Rlt_dec _ _ then _ else _) in *.
        set (rate2 := ((accepted_fraction (snd (move d v ctx fs)) + INR i * rate) / INR (S i))%R).
        apply (IH (S j) (S i) prev rate2 (positions (fst (move d v ctx fs))) (results (fst (move d v ctx fs))) z' (put w j (d, v)) f C1 C2 A1 A2).
        * unfold z'. destruct (Rlt_dec _ _); [now apply Hclosed|exact Hz].
        * unfold rate2. now apply rate_nonneg.
        * intros w' Ha. destruct (agree_put j w (d, v) w' Ha) as [Ew Ha']. destruct (Hf w' Ha') as (k & old & ->). exists k, old.
          destruct (pmmh_move u w' j k (map (fun _ => Fin 0) fs) ctx fs) as (P1 & P2 & P3). rewrite Ew in P1, P2, P3. cbn [fst snd] in P1, P2, P3. cbn [pmmh_moves].
          destruct (run_pmmh snd _ _ _ _ _ _ _ _ _ _) as [ch' acc]. cbn [fst snd] in P1, P2, P3. rewrite P1, P2, P3, Hdist. fold rate2. pose proof (rate_nonneg (snd (move d v ctx fs)) i rate Hr) as R. fold rate2 in R.
          destruct (Rlt_dec _ (c_accept c)) as [C|_]; [lra|]. replace (pos j + 3 + n_data) with (pos (S j)) by lia.
          destruct (pmmh_moves _ _ _ _ _ _ n _ _ _ _ _ _) as [[[[x1 x2] x3] x4] x5]. reflexivity.
      + intros d Hd. unfold moved. apply (averages_ext (uniforms B) (uniforms_law B) (fun u => if Rlt_dec (nth b u 0%R) (chance (height (onto_b d z)) (height z)) then g (onto_b d z) else g z)).
        * intros v _. now destruct (Rlt_dec _ _).
        * apply uniforms_below; [exact Hb|]. apply chance_range; apply posterior_nonneg.
      + split; [|reflexivity]. now apply (test_moved _ _ _ _ _ _ HH g Hg z Hz).
  Qed.
End Moves.
(** * Resampling, then moves *)
Lemma over_sum {U D} (LU : law U) (LD : law D) (HU : law_ok LU) (HD : law_ok LD) k r w {I} (l : list I) (f : I -> @stream U D -> R) m :
  (forall i, In i l -> averages_over LU LD k r (f i) w (m i)) -> averages_over LU LD k r (fun w => Rsum (map (fun i => f i w) l)) w (Rsum (map m l)).
Proof.
  induction l as [|i l IH]; intros H.
  - apply over_const; [exact HU|exact HD|]. reflexivity.
  - apply (over_ext LU LD HU HD k r (fun w => 1 * f i w + 1 * Rsum (map (fun i => f i w) l))%R); [intros w'; unfold Rsum; cbn [map fold_right]; ring|].
    replace (Rsum (map m (i :: l))) with (1 * m i + 1 * Rsum (map m l))%R by (unfold Rsum; cbn [map fold_right]; ring).
    apply over_lin; [exact HU|exact HD|apply H; now left|apply IH; intros j Hj; apply H; now right].
Qed.
Lemma sum_nth_map {A} (d : A) (F : A -> R) l : Rsum (map F l) = sumto (List.length l) (fun b => F (nth b l d)).
Proof.
  unfold sumto. f_equal. apply list_ext. intros b. rewrite !nth_error_map. destruct (Nat.lt_ge_cases b (List.length l)) as [C|C].
  - rewrite (nth_error_nth' l d C), (nth_error_nth' (seq 0 _) 0) by now rewrite seq_length. cbn [option_map]. now rewrite seq_nth.
  - rewrite !(proj2 (nth_error_None _ b)) by (rewrite ?seq_length; lia). reflexivity.
Qed.

Section Whole.
  Context {T F Y K U D : Type} (E : U -> @stream D (list R) -> env T F Y K) (LU : law U) (HU : law_ok LU) (L : law D) (HL : law_ok L)
    (pick : U -> list xf -> list nat) (cand : D -> nat -> T) (filt : D -> nat -> T -> F * xf) (B np r0 : nat) (data : list Y) (lp : T -> xf) (lq : T -> R).
  Context (UD : uses_draws E pick cand filt B np r0 data lp lq) (FP : fair_pick LU pick B) (SS : same_slots L cand filt B) (HB : 0 < B).
  Context (M : measure (T * (F * xf))).
  Notation height := (target lp lq).
  Context (Hclosed : forall b d z, b < B -> supp L d -> among M z -> among M (proposed cand filt b d z)).
  Context (Hproper : forall z, among M z -> proper (lp (fst z)) /\ proper (snd (snd z))).
  Context (G : (T * (F * xf) -> T * (F * xf) -> R) -> Prop) (H : (T * (F * xf) -> R) -> Prop).
  Context (HH : forall b, b < B -> testable M L (proposed cand filt b) height G H).
  Notation after b := (after_moves L cand filt lp lq b).
  Lemma after_same b n h z : b < B -> H h -> among M z -> after b n h z = after 0 n h z.
  Proof.
    intros Hb Hh. revert z. induction n as [|n IH]; intros z Hz; [reflexivity|].
    pose proof (after_test L cand filt lp lq 0 M G H (HH 0 HB) n h Hh) as H0.
    change (mean L (fun d => moved height (after b n h) z (proposed cand filt b d z)) = mean L (fun d => moved height (after 0 n h) z (proposed cand filt 0 d z))).
    pose proof (test_moved _ _ _ _ _ _ (HH 0 HB) _ H0 z Hz) as D0.
    pose proof (SS b (fun z' => moved height (after 0 n h) z z') _ Hb (conj D0 eq_refl)) as A.
    refine (proj2 (averages_ext L HL _ _ _ _ A)). intros d Hd. cbn beta. assert (Zb : among M (proposed cand filt b d z)) by now apply Hclosed.
    unfold moved. rewrite (IH z Hz). change (cand d b, filt d b (cand d b)) with (proposed cand filt b d z). now rewrite (IH _ Zb).
  Qed.

  Variables (c : smc2_cfg) (n : nat) (g : @world T) (s : @sstate F Y) (ws : list R).
  Context (Hacc : (c_accept c <= 0)%R) (Hdist : c_dist c = None) (Hdata : s_data s = Some data) (Hws : s_w s = map Fin ws) (Lw : List.length ws = B)
    (Lc : List.length (g_ctx g) = B) (Lf : List.length (s_fs s) = B) (Hr0 : g_rnd g = r0) (Hnp : g_np g = np).
  Context (Hin : forall b t f, nth_error (g_ctx g) b = Some t -> nth_error (s_fs s) b = Some f -> among M (t, f)).
  Definition shares : list R := map (fun r => exp r / Rsum (map exp ws))%R ws.
  Notation idx u := (pick u (map Fin shares)).
  Lemma ws_ne : ws <> []. Proof. intros ->. cbn in Lw. lia. Qed.
  Lemma sum_exp_pos (l : list R) : l <> [] -> (0 < Rsum (map exp l))%R.
  Proof.
    intros Hl. assert (N : forall l, (0 <= Rsum (map exp l))%R) by (induction l0 as [|x l' IH]; unfold Rsum in *; cbn [map fold_right]; [lra|pose proof (exp_pos x); lra]).
    destruct l as [|x l]; [congruence|]. specialize (N l). unfold Rsum in *. cbn [map fold_right]. pose proof (exp_pos x). lra.
  Qed.
  Lemma shares_ok : prob_vec shares /\ List.length shares = B.
  Proof.
    pose proof (sum_exp_pos ws ws_ne) as P. unfold shares. split; [|now rewrite map_length]. split.
    - intros x Hx. apply in_map_iff in Hx as (r & <- & _). apply Rlt_le, Rdiv_lt_0_compat; [apply exp_pos|exact P].
    - transitivity (Rsum (map exp ws) / Rsum (map exp ws))%R; [|field; lra]. generalize (Rsum (map exp ws)) at 1 3. intros S. clear. induction ws as [|x l IH]; unfold Rsum in *; cbn [map fold_right]; [unfold Rdiv; ring|]. rewrite IH. unfold Rdiv. ring.
  Qed.
  Lemma update_is u w : supp LU u -> exists rows fs k rnd accs ctx' fs',
    List.length rows = B /\ List.length fs = B /\ (forall b i, nth_error (idx u) b = Some i -> nth_error rows b = nth_error (g_ctx g) i /\ nth_error fs b = nth_error (s_fs s) i) /\
    gather (g_ctx g) (idx u) = Ok rows /\ gather (s_fs s) (idx u) = Ok fs /\ k = e_build (E u w) (g_ctx g) (map Fin ws) (s_fs s) /\
    pmmh_moves (E u w) c np data k rows (c_steps c) 0 (r0 + 2) 0 0 rows fs = (ctx', fs', rnd, accs, false) /\
    pmmh_update (E u w) c n g s = (n, World ctx' ctx' np rnd (S (g_updates g)), Ok (Same (with_w (zeros (map Fin ws)) (with_w (map Fin ws) (with_fs fs' s))))).
  Proof.
    intros Hu. destruct shares_ok as [Ps Ls]. destruct (proj1 FP u shares Hu Ps Ls) as [Li Fi].
    destruct (gather_ok (g_ctx g) (idx u)) as (rows & G1 & L1 & N1); [now rewrite Lc|]. destruct (gather_ok (s_fs s) (idx u)) as (fs & G2 & L2 & N2); [now rewrite Lf|].
    set (k := e_build (E u w) (g_ctx g) (map Fin ws) (s_fs s)).
    pose proof (moves_fixed E B np data 0 HB c Hacc Hdist u w (c_steps c) 0 0 0 k rows (r0 + 2) rows fs (Rle_refl 0)) as Lo.
    destruct (pmmh_moves (E u w) c np data k rows (c_steps c) 0 (r0 + 2) 0 0 rows fs) as [[[[ctx' fs'] rnd] accs] low] eqn:Em. cbn [snd] in Lo. subst low.
    exists rows, fs, k, rnd, accs, ctx', fs'. split; [congruence|]. split; [congruence|]. split; [intros b i Hbi; split; [now apply N1|now apply N2]|]. split; [exact G1|]. split; [exact G2|]. split; [reflexivity|]. split; [exact Em|].
    unfold pmmh_update. rewrite Hdata, Hws, (normalize_fin _ ws ws_ne). cbn [count_update g_rnd g_ctx g_np g_model g_updates]. rewrite Hr0, (ud_pick _ _ _ _ _ _ _ _ _ _ UD).
    replace (map (fun r => Fin (exp r / Rsum (map exp ws))) ws) with (map Fin shares) by (unfold shares; now rewrite map_map). rewrite G1, G2, Hnp. fold k. rewrite Em. reflexivity.
  Qed.
  Lemma value_copy h : H h -> forall u w, supp LU u -> averages_over L (uniforms B) (c_steps c) 0 (fun w => rejuvenated (E u w) c n g s B h) w
    (/ INR B * Rsum (map (particle_value (after 0 (c_steps c) h) (g_ctx g) (s_fs s)) (idx u)))%R.
  Proof.
    intros Hh u w Hu. destruct (update_is u w Hu) as (rows & fs & _ & _ & _ & _ & _ & L1 & L2 & N & G1 & G2 & _). destruct shares_ok as [Ps Ls]. destruct (proj1 FP u shares Hu Ps Ls) as [Li Fi].
    set (mv w b := moved_slot b h (pmmh_moves (E u w) c np data (e_build (E u w) (g_ctx g) (map Fin ws) (s_fs s)) rows (c_steps c) 0 (r0 + 2) 0 0 rows fs)).
    assert (EQ : forall w', rejuvenated (E u w') c n g s B h = (/ INR B * Rsum (map (mv w') (seq 0 B)))%R).
    { intros w'. destruct (update_is u w' Hu) as (rows' & fs' & k & rnd & accs & ctx2 & fs2 & _ & _ & _ & G1' & G2' & -> & Em & Ep). rewrite G1 in G1'. injection G1' as <-. rewrite G2 in G2'. injection G2' as <-.
      unfold rejuvenated. rewrite Ep. unfold particle_mean, mv. rewrite Em. reflexivity. }
    apply (over_ext L (uniforms B) HL (uniforms_law B) (c_steps c) 0 (fun w => / INR B * Rsum (map (mv w) (seq 0 B)) + 0 * 0)%R); [intros w'; rewrite EQ; ring|].
    rewrite (sum_nth_map 0), Li. unfold sumto. match goal with |- averages_over _ _ _ _ _ _ ?m => replace m with (m + 0 * 0)%R by ring end.
    apply (over_lin L (uniforms B) HL (uniforms_law B) (/ INR B)%R 0%R (c_steps c) 0 (fun w => Rsum (map (mv w) (seq 0 B))) (fun _ => 0%R)); [|apply over_const; [exact HL|apply uniforms_law|reflexivity]].
    apply (over_sum L (uniforms B) HL (uniforms_law B) (c_steps c) 0 w (seq 0 B) (fun b w => mv w b)). intros b Hb. apply in_seq in Hb. assert (Hb' : b < B) by lia.
    pose proof (nth_error_nth' (idx u) 0 (eq_ind_r (fun k => b < k) Hb' Li)) as Ei. set (i := nth b (idx u) 0) in *.
    assert (Hi : i < B) by (rewrite Forall_forall in Fi; apply Fi; now apply nth_error_In with b). destruct (N b i Ei) as [N1 N2].
    destruct (nth_some (g_ctx g) i ltac:(now rewrite Lc)) as [t Et]. destruct (nth_some (s_fs s) i ltac:(now rewrite Lf)) as [f Ef].
    unfold particle_value. rewrite Et, Ef. rewrite <- (after_same b) by (try assumption; now apply (Hin i)).
    apply (moves_onwards E L HL pick cand filt B np r0 data lp lq UD b Hb' M (fun d z => Hclosed b d z Hb') Hproper G H (HH b Hb') c Hacc Hdist u h Hh (c_steps c) 0 0 0 0 rows fs (t, f)); cbn [fst snd];
      [exact L1|exact L2|now rewrite N1|now rewrite N2|now apply (Hin i)|lra|].
    intros w' _. eexists _, rows. rewrite Nat.mul_0_l, Nat.add_0_r. reflexivity.
  Qed.
  Lemma value_mean h : H h -> forall w, averages LU (fun u => average L (uniforms B) (c_steps c) 0 (fun w => rejuvenated (E u w) c n g s B h) w)
    (weighted_mean B shares (after 0 (c_steps c) h) (g_ctx g) (s_fs s)).
  Proof.
    intros Hh w. destruct shares_ok as [Ps Ls]. set (V := particle_value (after 0 (c_steps c) h) (g_ctx g) (s_fs s)).
    apply (averages_ext LU HU (fun u => / INR B * Rsum (map (fun i => INR (copies i (idx u)) * V i) (seq 0 B)))%R).
    - intros u Hu. destruct (value_copy h Hh u w Hu) as [_ ->]. fold V. rewrite (sum_copies B V); [reflexivity|]. now apply (proj1 FP u _ Hu).
    - replace (weighted_mean B shares _ _ _) with (/ INR B * Rsum (map (fun i => INR B * nth i shares 0 * V i) (seq 0 B)))%R.
      + apply averages_scal; [exact HU|]. apply averages_sum; [exact HU|]. intros i Hi. apply in_seq in Hi.
        pose proof (averages_scal LU HU (V i) _ _ (proj2 FP shares i Ps Ls ltac:(lia))) as A. refine (eq_rect _ (averages LU _) (averages_ext LU HU _ _ _ _ A) _ _); [intros; ring|ring].
      + unfold weighted_mean. fold V. assert (P : INR B <> 0%R) by (apply not_0_INR; lia). change (/ INR B * sumto B (fun i => INR B * nth i shares 0 * V i) = sumto B (fun b => nth b shares 0 * V b))%R.
        rewrite (sumto_ext B _ (fun i => INR B * (nth i shares 0 * V i))%R) by (intros; ring). rewrite sumto_scal. field. exact P.
  Qed.
  (** With the mean weight in front, the shares are the weights. *)
  Lemma mean_weight_shares (h : T * (F * xf) -> R) ctx fs : (mean_weight B ws * weighted_mean B shares h ctx fs = weights_sum B ws h ctx fs)%R.
  Proof.
    pose proof (sum_exp_pos ws ws_ne) as P. unfold mean_weight, weighted_mean, weights_sum. rewrite Rmult_assoc. f_equal. change (Rsum (map exp ws) * sumto B (fun b => nth b shares 0 * particle_value h ctx fs b) = sumto B (fun b => exp (nth b ws 0) * particle_value h ctx fs b))%R.
    rewrite <- sumto_scal. apply sumto_ext. intros b Hb. assert (Q : nth b shares 0%R = (exp (nth b ws 0) / Rsum (map exp ws))%R).
    { unfold shares. rewrite (nth_indep _ 0%R ((fun r => exp r / Rsum (map exp ws)) 0)%R) by (rewrite map_length; lia). now rewrite (map_nth (fun r => exp r / Rsum (map exp ws))%R). }
    rewrite Q. field. lra.
  Qed.
End Whole.
(** * C108 *)
(** What a rejuvenation with a fixed number of moves leaves behind: weights of zero, a model built from the new parameters. *)
Theorem C108_reset : forall (T F Y K U D : Type) (E : U -> @stream D (list R) -> env T F Y K) (LU : law U) pick cand filt B np r0 data log_prior log_density c n g s ws u w,
  uses_draws E pick cand filt B np r0 data log_prior log_density -> fair_pick LU pick B -> 0 < B -> (c_accept c <= 0)%R -> c_dist c = None ->
  s_data s = Some data -> s_w s = map Fin ws -> List.length ws = B -> List.length (g_ctx g) = B -> List.length (s_fs s) = B -> g_rnd g = r0 -> g_np g = np -> supp LU u ->
  exists g' s', pmmh_update (E u w) c n g s = (n, g', Ok (Same s')) /\ s_w s' = repeat (Fin 0) B /\ g_model g' = g_ctx g' /\ g_np g' = np /\ s_data s' = Some data.
Proof.
  intros T F Y K U D E LU pick cand filt B np r0 data lp lq c n g s ws u w UD FP HB Ha Hd Hdata Hws Lw Lc Lf Hr Hn Hu.
  destruct (update_is E LU pick cand filt B np r0 data lp lq UD FP HB c n g s ws Ha Hd Hdata Hws Lw Lc Lf Hr Hn u w Hu) as (rows & fs & k & rnd & accs & ctx' & fs' & _ & _ & _ & _ & _ & _ & _ & Ep).
  eexists _, _. split; [exact Ep|]. cbn. split; [|repeat split; exact Hdata]. subst B. clear. induction ws as [|x l IH]; cbn; [reflexivity|]. f_equal. exact IH.
Qed.
Print Assumptions C108_reset.

(** If weighted means over the particles are right on average for the target (whatever the law [LA] of the populations), so
    are the plain means over the rejuvenated particles, the mean weight in front: resampling and any number of moves keep
    the target. *)
Theorem C108_target_partial : forall (T F Y K U D A : Type) (E : U -> @stream D (list R) -> env T F Y K) (LU : law U) (L : law D) (LA : law A) pick cand filt B np r0 data log_prior log_density
    (M : measure (T * (F * xf))) G H c n (g : A -> world) (s : A -> sstate) (ws : A -> list R) h m w,
  law_ok LU -> law_ok L -> law_ok LA -> measure_ok M ->
  uses_draws E pick cand filt B np r0 data log_prior log_density -> fair_pick LU pick B -> same_slots L cand filt B -> 0 < B ->
  (forall b d z, b < B -> supp L d -> among M z -> among M (proposed cand filt b d z)) ->
  (forall z, among M z -> proper (log_prior (fst z)) /\ proper (snd (snd z))) ->
  reversible M L (proposed cand filt 0) G -> (forall b, b < B -> testable M L (proposed cand filt b) (target log_prior log_density) G H) ->
  (c_accept c <= 0)%R -> c_dist c = None ->
  (forall a, supp LA a -> s_data (s a) = Some data /\ s_w (s a) = map Fin (ws a) /\ List.length (ws a) = B /\ List.length (g_ctx (g a)) = B /\ List.length (s_fs (s a)) = B /\
    g_rnd (g a) = r0 /\ g_np (g a) = np /\ forall b t f, nth_error (g_ctx (g a)) b = Some t -> nth_error (s_fs (s a)) b = Some f -> among M (t, f)) ->
  (forall h m, H h -> integral M (fun z => target log_prior log_density z * h z)%R m -> averages LA (fun a => weights_sum B (ws a) h (g_ctx (g a)) (s_fs (s a))) m) ->
  H h -> integral M (fun z => target log_prior log_density z * h z)%R m ->
  averages (and_then LA LU) (fun q => mean_weight B (ws (fst q)) * average L (uniforms B) (c_steps c) 0 (fun w => rejuvenated (E (snd q) w) c n (g (fst q)) (s (fst q)) B h) w)%R m /\
  forall a u, supp LA a -> supp LU u -> exists_average L (uniforms B) (c_steps c) 0 (fun w => rejuvenated (E u w) c n (g a) (s a) B h) w.
Proof.
  intros T F Y K U D A E LU L LA pick cand filt B np r0 data lp lq M G H c n g s ws h m w HU HL HA HM UD FP SS HB Hcl Hpr Hrev HH Hacc Hdist Hs Hw Hh Hm. split.
  - pose proof (after_test L cand filt lp lq 0 M G H (HH 0 HB) (c_steps c) h Hh) as Ht.
    pose proof (onwards_integral snd (fun t => xsub (lp t) (Fin (lq t))) 0 L HL M HM (fun d b (_ : T) => cand d b) filt G H (HH 0 HB) Hrev (c_steps c) h m Hh Hm) as Hi.
    apply (and_then_is LA LU HA HU _ (fun a => weights_sum B (ws a) (after_moves L cand filt lp lq 0 (c_steps c) h) (g_ctx (g a)) (s_fs (s a)))).
    + intros a Ha. destruct (Hs a Ha) as (S1 & S2 & S3 & S4 & S5 & S6 & S7 & S8). cbn [fst snd].
      rewrite <- (mean_weight_shares B np r0 HB (g a) (s a) (ws a) S2 S3 S4 S5 S6 S7). apply averages_scal; [exact HU|].
      exact (value_mean E LU HU L HL pick cand filt B np r0 data lp lq UD FP SS HB M Hcl Hpr G H HH c n (g a) (s a) (ws a) Hacc Hdist S1 S2 S3 S4 S5 S6 S7 S8 h Hh w).
    + apply Hw; [exact Ht|exact Hi].
  - intros a u Ha Hu. destruct (Hs a Ha) as (S1 & S2 & S3 & S4 & S5 & S6 & S7 & S8).
    exact (proj1 (value_copy E LU L HL pick cand filt B np r0 data lp lq UD FP SS HB M Hcl Hpr G H HH c n (g a) (s a) (ws a) Hacc Hdist S1 S2 S3 S4 S5 S6 S7 S8 h Hh u w Hu)).
Qed.
Print Assumptions C108_target_partial.

(** Systematic resampling, the default of kernels, is fair. *)
Theorem C108_systematic : forall lowest B, 0 < B ->
  fair_pick uniform (fun u p => match systematic lowest (fun _ => u) (W1 p) true None with Ok (I1 l) => l | _ => [] end) B.
Proof.
  intros lowest B HB. split.
  - intros u p [U1 U2] Pp Lp. destruct (ResamplingProps.C11_valid_indices lowest (fun _ => u) (map Fin p) true None) as (out & -> & Lo & Ho).
    + destruct p; [cbn in Lp; lia|discriminate].
    + intros _. lra.
    + rewrite map_length in Lo, Ho. rewrite <- Lp. split; [exact Lo|]. apply Forall_forall. exact Ho.
  - intros p i Pp Lp Hi. rewrite <- Lp. apply uniform_is. apply (ResampleMeanProps.C85_systematic lowest p None i Pp). now rewrite Lp.
Qed.
Print Assumptions C108_systematic.
(** Two particles, parameters 0 and 1 proposed with chances 1/3 and 2/3, a likelihood of [exp theta] of which filters estimate
    half or one and a half times; the first population consists of draws from the proposal, weighted. *)
Definition shots : list ((nat * R) * R) := let a := (1 / 2)%R in let b := (3 / 2)%R in let p := (1 / 6)%R in let q := (1 / 3)%R in [((0, a), p); ((0, b), p); ((1, a), q); ((1, b), q)].
Definition tries : law ((nat * R) * (nat * R)) := finite (flat_map (fun p => map (fun q => ((fst p, fst q), (snd p * snd q)%R)) shots) shots).
Definition of_slot (d : (nat * R) * (nat * R)) (b : nat) : nat * R := match b with 0 => fst d | _ => snd d end.
Definition try_cand (d : (nat * R) * (nat * R)) (b : nat) : nat := fst (of_slot d b).
Definition try_filt (d : (nat * R) * (nat * R)) (b t : nat) : nat * xf := (1, Fin (0 + (INR t + ln (snd (of_slot d b))))%R).
Definition try_point (t : nat) (x : R) : nat * (nat * xf) := (t, (1, Fin (0 + (INR t + ln x))%R)).
Definition try_density (t : nat) : R := match t with 0 => ln (1 / 3) | _ => ln (2 / 3) end.
Definition try_pick (u : R) (p : list xf) : list nat := match systematic (-1000)%R (fun _ => u) (W1 p) true None with Ok (I1 l) => l | _ => [] end.
Definition try_env (u : R) (w : @stream ((nat * R) * (nat * R)) (list R)) : env nat nat unit unit :=
  let at_ r := w ((r - 2) / 4) in
  Env nat nat unit unit (-1000)%R 2 (fun r np b built now => 0)
    (fun r np b built now y f => (S f, Fin (INR now + ln (snd (of_slot (fst (at_ r)) b)))))
    (fun r p => try_pick u p) (fun r rows w idx => rows) (fun r => [true; false])
    (fun rows w fs => tt) (fun k rows => map (fun t => Fin (try_density t)) rows) (fun k k' m => tt) (fun r k => map (try_cand (fst (at_ r))) [0; 1]) (fun r => snd (at_ r)) (fun t => Fin 0) (fun a b => 0%R).
Definition try_points : measure (nat * (nat * xf)) := summing (map (fun p => (try_point (fst (fst p)) (snd (fst p)), snd p)) shots).
Definition try_world (a : (nat * R) * (nat * R)) : @world nat := let rows := map (try_cand a) [0; 1] in World rows rows 100 0 3.
Definition try_weights (a : (nat * R) * (nat * R)) : list R := map (fun b => INR (try_cand a b) + ln (snd (of_slot a b)) - try_density (try_cand a b))%R [0; 1].
Definition try_state (a : (nat * R) * (nat * R)) : @sstate nat unit := St (map Fin (try_weights a)) (map (fun b => try_filt a b (try_cand a b)) [0; 1]) [] (Some [tt]) 1.
Definition try_cfg (k : nat) : smc2_cfg := Smc2Cfg (fun _ => (1 / 2)%R) k 0%R 2 None.
Lemma try_uses : uses_draws try_env try_pick try_cand try_filt 2 100 0 [tt] (fun _ => Fin 0) try_density.
Proof.
  assert (Q : forall i k, k < 4 -> (0 + 2 + i * 4 + k - 2) / 4 = i).
  { intros i k Hk. replace (0 + 2 + i * 4 + k - 2) with (k + i * 4) by lia. rewrite Nat.div_add by lia. now rewrite Nat.div_small. }
  constructor; try reflexivity; intros u w i.
  - intros k. cbn [e_sample try_env List.length seq]. replace (0 + 2 + i * (3 + 1)) with (0 + 2 + i * 4 + 0) by lia. now rewrite Q by lia.
  - intros b t. unfold alone, alone_on, try_filt. cbn [e_step e_init try_env List.length fst snd xadd]. replace (S (0 + 2 + i * (3 + 1) + 1)) with (0 + 2 + i * 4 + 2) by lia. now rewrite Q by lia.
  - cbn [e_uniforms try_env List.length]. replace (0 + 2 + i * (3 + 1) + 2 + 1) with (0 + 2 + i * 4 + 3) by lia. now rewrite Q by lia.
Qed.
Lemma try_target t x : t < 2 -> (0 < x)%R -> target (fun _ => Fin 0) try_density (try_point t x) = exp (INR t + ln x - try_density t).
Proof. intros Ht Hx. unfold target, posterior, try_point. cbn [fst snd xsub xopp xadd mass]. rewrite <- exp_plus. f_equal. ring. Qed.
Lemma tries_ok : law_ok tries. Proof. apply finite_ok. unfold Rsum. cbn. lra. Qed.
Lemma tries_among b d : supp tries d -> among try_points (try_cand d b, try_filt d b (try_cand d b)).
Proof.
  intros (p & Hd). apply in_flat_map in Hd as (q1 & H1 & H2). apply in_map_iff in H2 as (q2 & E2 & H2). injection E2 as <- _.
  unfold try_cand, try_filt. destruct b as [|b]; cbn [of_slot fst snd]; [exists (snd q1)|exists (snd q2)];
    apply in_map_iff; [exists q1|exists q2]; (split; [reflexivity|assumption]).
Qed.
Lemma tries_slot (f : nat -> R -> R) b : mean tries (fun d => f (try_cand d b) (snd (of_slot d b))) = fold_right Rplus 0%R (map (fun p => (snd p * f (fst (fst p)) (snd (fst p)))%R) shots).
Proof. unfold try_cand. destruct b as [|b]; cbn [tries finite mean shots flat_map map app fold_right fst snd of_slot]; lra. Qed.
Example C108_nonvacuous : forall k w,
  averages (and_then tries uniform)
    (fun q => mean_weight 2 (try_weights (fst q)) *
       average tries (uniforms 2) k 0 (fun w => rejuvenated (try_env (snd q) w) (try_cfg k) 0 (try_world (fst q)) (try_state (fst q)) 2 (fun z => INR (fst z + 1))) w)%R
    (1 + 2 * exp 1)%R.
Proof.
  intros k w.
  refine (proj1 (C108_target_partial nat nat unit unit R ((nat * R) * (nat * R)) ((nat * R) * (nat * R)) try_env uniform tries tries try_pick try_cand try_filt 2 100 0 [tt] (fun _ => Fin 0) try_density
    try_points (fun _ => True) (fun _ => True) (try_cfg k) 0 try_world try_state try_weights (fun z => INR (fst z + 1)) (1 + 2 * exp 1)%R w
    uniform_ok tries_ok tries_ok (summing_ok _) try_uses (C108_systematic _ 2 Nat.lt_0_2) _ Nat.lt_0_2 _ _ _ _ _ eq_refl _ _ I _)).
  - intros b g m Hb [_ <-]. split; [exact I|]. unfold try_filt.
    exact (eq_trans (tries_slot (fun t x => g (try_point t x)) b) (eq_sym (tries_slot (fun t x => g (try_point t x)) 0))).
  - intros b d z _ Hd _. now apply tries_among.
  - intros z (p & Hz). apply in_map_iff in Hz as (q & Ez & _). injection Ez as <- _. split; exact I.
  - intros g m m' _ [_ H1] [_ H2]. cbn [integral try_points summing] in H1, H2. rewrite map_map in H1, H2. cbn [fst snd] in H1, H2.
    assert (S0 : forall f : nat * (nat * xf) -> R, mean tries (fun d => f (proposed try_cand try_filt 0 d (0, (1, Fin 0)))) = fold_right Rplus 0%R (map (fun p => (snd p * f (try_point (fst (fst p)) (snd (fst p))))%R) shots))
      by (intros f; apply (tries_slot (fun t x => f (try_point t x))%R 0)).
    assert (H1' : fold_right Rplus 0%R (map (fun q => (snd q * fold_right Rplus 0 (map (fun p => snd p * g (try_point (fst (fst q)) (snd (fst q))) (try_point (fst (fst p)) (snd (fst p)))) shots))%R) shots) = m).
    { rewrite <- H1. f_equal. apply map_ext. intros q. f_equal. symmetry. apply (S0 (fun z' => g _ z')). }
    assert (H2' : fold_right Rplus 0%R (map (fun q => (snd q * fold_right Rplus 0 (map (fun p => snd p * g (try_point (fst (fst p)) (snd (fst p))) (try_point (fst (fst q)) (snd (fst q)))) shots))%R) shots) = m').
    { rewrite <- H2. f_equal. apply map_ext. intros q. f_equal. symmetry. apply (S0 (fun z' => g z' _)). }
    rewrite <- H1', <- H2'. clear. cbn [shots map fold_right fst snd]. lra.
  - intros b _. constructor; [now intros|intros; exact I|intros; eexists; split; [intros; exact I|reflexivity]|intros; eexists; split; [intros; exact I|reflexivity]|intros; exact I].
  - cbn. lra.
  - intros a Ha. repeat split. intros b t f Hb1 Hb2. destruct b as [|[|b]]; cbn in Hb1, Hb2; [| |destruct b; discriminate]; injection Hb1 as <-; injection Hb2 as <-; now apply tries_among.
  - intros h m _ <-. split; [exact I|]. cbn [integral try_points summing]. rewrite map_map. cbn [fst snd].
    transitivity (mean tries (fun a => / 2 * ((fun t x => exp (INR t + ln x - try_density t) * h (try_point t x)) (try_cand a 0) (snd (of_slot a 0))) +
      / 2 * ((fun t x => exp (INR t + ln x - try_density t) * h (try_point t x)) (try_cand a 1) (snd (of_slot a 1))))%R).
    + refine (proj2 (law_ext _ tries_ok _ _ _ I)). intros a _. cbv beta. unfold weights_sum, try_world, try_state, try_weights, particle_value, Rsum. cbn [g_ctx s_fs map seq nth nth_error fold_right INR]. unfold try_filt. unfold try_point. field.
    + rewrite (proj2 (law_lin _ tries_ok (/ 2) (/ 2) _ _ I I)).
      rewrite (tries_slot (fun t x => exp (INR t + ln x - try_density t) * h (try_point t x))%R 0), (tries_slot (fun t x => exp (INR t + ln x - try_density t) * h (try_point t x))%R 1).
      match goal with |- (/ 2 * ?a + / 2 * ?a)%R = ?b => assert (Q : a = b); [|rewrite <- Q; lra] end. cbn [shots map fold_right fst snd]. rewrite !try_target by (lia || lra). ring.
  - cbn [integral try_points summing]. rewrite map_map. cbn [fst snd]. cbn [shots map fold_right fst snd]. rewrite !try_target by (lia || lra).
    assert (X : forall t x, (0 < x)%R -> exp (INR t + ln x - try_density t) = (exp (INR t) * x / exp (try_density t))%R).
    { intros t x Hx. unfold Rminus. rewrite !exp_plus, exp_Ropp, exp_ln by exact Hx. reflexivity. }
    rewrite !X by lra. unfold try_point. cbn [try_density INR Nat.add fst]. rewrite !exp_ln by lra. rewrite exp_0. field.
Qed.
Print Assumptions C108_nonvacuous.
